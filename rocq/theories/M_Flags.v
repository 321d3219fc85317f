(** * Model of src/ring/utils/backend.py 5-32: set_host_device_count.  A text is the list of its characters. *)
From Coq Require Import Ascii String ZArith Bool Arith List.
From Verif Require Import Prelude M_Rcmg.
Import ListNotations.
Local Open Scope list_scope. Local Open Scope nat_scope.

Definition text := list ascii.
Definition flag : text := list_ascii_of_string "--xla_force_host_platform_device_count=".

Section Flags.
(** Python's notion of whitespace, the same for str.split and for \S *)
Variable space : ascii -> bool.

Fixpoint prefix_of (p s : text) : option text :=
  match p, s with
  | [], _ => Some s
  | a :: p, b :: s => if Ascii.eqb a b then prefix_of p s else None
  | _ :: _, [] => None
  end.
(** Whether the regular expression --xla_force_host_platform_device_count=\S+ matches here *)
Definition matches_here (s : text) : bool := match prefix_of flag s with Some (c :: _) => negb (space c) | _ => false end.
(** backend.py 26-28: re.sub(..., "", s).  The expression has no whitespace and \S+ is greedy, so a match extends to the end of the word:
    with [skip] the scan is inside of a match. *)
Fixpoint re_sub (skip : bool) (s : text) : text :=
  match s with
  | [] => []
  | c :: r => if (skip && negb (space c)) || matches_here s then re_sub true r else c :: re_sub false r
  end.
(** backend.py 28: str.split(); [word] is the word read so far *)
Fixpoint split (word : text) (s : text) : list text :=
  match s with
  | [] => match word with [] => [] | _ => [word] end
  | c :: r => if space c then (match word with [] => split [] r | _ => word :: split [] r end) else split (word ++ [c]) r
  end.
(** " ".join *)
Fixpoint join (ws : list text) : text :=
  match ws with
  | [] => []
  | [w] => w
  | w :: r => w ++ " "%char :: join r
  end.
(** backend.py 25-32: the old value of XLA_FLAGS (empty if unset), the text of n, and the new value *)
Definition set_host_device_count (xla_flags : option text) (n : text) : text :=
  let old := match xla_flags with Some s => s | None => [] end in
  join ((flag ++ n) :: split [] (re_sub false old)).
End Flags.
