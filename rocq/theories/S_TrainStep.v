(** * Specification vocabulary for a training step. *)
From Coq Require Import Reals List.
Import ListNotations.

(** The vector [p] with component [i] replaced by [t]. *)
Fixpoint upd (p : list R) (i : nat) (t : R) : list R :=
  match p, i with [], _ => [] | _ :: r, 0 => t :: r | x :: r, S j => x :: upd r j t end.
(** [g] consists of the partial derivatives of [f] at [p]. *)
Definition is_gradient (f : list R -> R) (p g : list R) : Prop :=
  length g = length p /\ forall i, i < length p -> derivable_pt_lim (fun t => f (upd p i t)) (nth i p 0%R) (nth i g 0%R).
(** Arithmetic mean. *)
Definition avg (l : list R) : R := (fold_right Rplus 0 l / INR (length l))%R.

(** [ws] are consecutive windows, [L] steps long, of all the sequences [X]. *)
Definition cut_of {D} (L : nat) (X : list (list D)) (ws : list (list (list D))) : Prop :=
  (forall w, In w ws -> length w = length X /\ Forall (fun part => length part = L) w) /\
  forall b x, nth_error X b = Some x -> concat (map (fun w => nth b w []) ws) = x.

Section Learn.
Context {St D Out Opt : Type}.
Variable apply1 : list R -> St -> list D -> list Out * St.
Variable target : D -> Out.
Variable metric : list Out -> list Out -> R.
Variable apply_grads : list R -> list R -> Opt -> list R * Opt.

(** The error of the filter on the sequence [x] from state [s], and the mean over a batch. *)
Definition error_of (s : St) (x : list D) (p : list R) : R := metric (map target x) (fst (apply1 p s x)).
Definition batch_error (ss : list St) (X : list (list D)) (p : list R) : R :=
  avg (map (fun sx => error_of (fst sx) (snd sx) p) (combine ss X)).
(** Learning on one window after the other: each starts in the states in which the one before ended, and the parameters
    are updated with the gradient of the mean error. *)
Inductive learns : list R -> Opt -> list St -> list (list (list D)) -> list R -> Opt -> list R -> list (list R) -> Prop :=
| learns_end p o ss : learns p o ss [] p o [] []
| learns_window p o ss w ws g p1 o1 p2 o2 ls gs :
    is_gradient (batch_error ss w) p g -> apply_grads g p o = (p1, o1) ->
    learns p1 o1 (map (fun sx => snd (apply1 p (fst sx) (snd sx))) (combine ss w)) ws p2 o2 ls gs ->
    learns p o ss (w :: ws) p2 o2 (batch_error ss w p :: ls) (g :: gs).

Context {F : Type}.
Variable link : Out -> nat -> F.
(** The errors of link [i] at all times of all sequences. *)
Definition link_errors (metric : F -> F -> R) (p : list R) (i : nat) (ss : list St) (X : list (list D)) : list R :=
  concat (map (fun sx => map (fun yy => metric (link (fst yy) i) (link (snd yy) i)) (combine (map target (snd sx)) (fst (apply1 p (fst sx) (snd sx)))))
    (combine ss X)).
End Learn.
