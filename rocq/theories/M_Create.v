(** * Model of systems as files: System.from_xml, from_str, to_str, to_xml and create (base.py 781-809), io/xml/to_xml.py 91-94,
    io/xml/from_xml.py 262-270 and utils/path.py 30-62.

    A folder is a dictionary from file names to texts.  Simplifications: file names have no separators and home directories are not
    expanded; a text is printed from and parsed to an element tree by the parameters [pretty] and [fromstring]. *)
From Coq Require Import Reals ZArith String Bool List.
From Verif Require Import Prelude M_Sys M_Geom M_Xml M_Disk.
Import ListNotations.
Local Open Scope string_scope.
Local Open Scope list_scope.

Section Create.
Context {J : Type}.
Variable W : widths.
Variable print : R -> string.
Variable print_int : Z -> string.
Variable float_of : string -> option R.
(** jcalc._init_joint_params with PRNGKey(seed), from_xml.py 257 *)
Variable jinit : Z -> list string -> result (list J).
(** parseString(tostring(.)).toprettyxml, to_xml.py 87, and ElementTree.fromstring, from_xml.py 139 *)
Variable pretty : xml string -> string.
Variable fromstring : string -> result (xml string).
Definition files := list (string * string).

(** base.py 789-790 *)
Definition to_text (s : xsys J) : result string := do x <- save W print print_int s; Ok (pretty x).
(** base.py 792-793, to_xml.py 91-94.  The text is made before the file is opened; the name is used as it is. *)
Definition to_xml (d : files) (s : xsys J) (path : string) : result files :=
  do t <- to_text s;
  if (path =? "")%string then Err EOther else Ok (dset String.eqb d path t).
(** base.py 785-787 *)
Definition from_str (t : string) (seed : Z) : result (xsys J) :=
  do x <- fromstring t; load W print_int float_of (jinit seed) x.
(** base.py 781-783, from_xml.py 262-270.  with_suffix refuses the empty name (ValueError); a missing file is a FileNotFoundError. *)
Definition from_xml (d : files) (path : string) (seed : Z) : result (xsys J) :=
  if (path =? "")%string then Err EValue
  else match dget String.eqb d (with_suffix path (dotted "xml")) with
       | None => Err EOther
       | Some t => from_str t seed
       end.
(** base.py 795-809 *)
Definition create (d : files) (path_or_str : string) (seed : Z) : result (xsys J) :=
  if (path_or_str =? "")%string then Err EValue
  else
    let path := with_suffix path_or_str ".xml" in
    if dmem String.eqb d path then from_xml d path seed else from_str path_or_str 1.
End Create.
