(** * Specification of setting the number of host devices: what the flags in a text are. *)
From Coq Require Import Ascii String Bool List.
From Verif Require Import M_Flags.
Import ListNotations.

(** A text of flags: words separated by whitespace. *)
Definition blank (space : ascii -> bool) (s : text) : Prop := Forall (fun c => space c = true) s.
Definition word (space : ascii -> bool) (w : text) : Prop := w <> [] /\ Forall (fun c => space c = false) w.
Definition boundary (space : ascii -> bool) (s : text) : Prop := match s with [] => True | c :: _ => space c = true end.
Inductive reads (space : ascii -> bool) : text -> list text -> Prop :=
| reads_none s : blank space s -> reads space s []
| reads_word sp w rest ws : blank space sp -> word space w -> boundary space rest -> reads space rest ws -> reads space (sp ++ w ++ rest) (w :: ws).

(** A flag that sets the number of devices, and a text that has such a setting somewhere. *)
Definition setting (w : text) : Prop := exists v, v <> [] /\ w = flag ++ v.
Definition has_setting (w : text) : Prop := exists pre v, v <> [] /\ w = pre ++ flag ++ v.
