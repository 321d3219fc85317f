(** * Specification vocabulary for callbacks of a training run. *)
From Coq Require Import Reals String ZArith Bool Arith List.
From Verif Require Import Prelude M_Rcmg M_Callbacks.
Import ListNotations.
Local Open Scope nat_scope.

Section Spec.
Context {Par Opt Batch : Type}.
Variable has_nan : Par -> bool.
Variable elapsed : nat -> R.
Variable tags : nat -> option (list string).
Variable step_fn : Par -> Opt -> Batch -> Par * Opt * flt * list (list flt).
Notation cb := (cb Par Opt Batch).

(** What an episode leaves behind: its number, the new parameters and optimiser state, the gradients of its windows. *)
Record rec := mkRec { r_e : nat; r_p : Par; r_o : Opt; r_g : list (list flt) }.
(** Training on the batches [bs] from parameters [p] and optimiser state [o], the first episode being number [e]. *)
Fixpoint history (e : nat) (p : Par) (o : Opt) (bs : list Batch) : list rec :=
  match bs with
  | [] => []
  | b :: r => let '(p', o', _, g) := step_fn p o b in mkRec e p' o' g :: history (S e) p' o' r
  end.
(** The parameters and optimiser state after it. *)
Fixpoint trained (p : Par) (o : Opt) (bs : list Batch) : Par * Opt :=
  match bs with
  | [] => (p, o)
  | b :: r => let '(p', o', _, _) := step_fn p o b in trained p' o' r
  end.

(** The first [n] batches of a run whose next batch is [b]: batch [e + 1] is generated with the key drawn in episode [e]. *)
Fixpoint data {GS Key KS} (gen : GS -> Key -> GS * Batch) (next_key : KS -> nat -> KS * Key) (gs : GS) (ks : KS) (e : nat) (b : Batch) (n : nat) : list Batch :=
  match n with
  | 0 => []
  | S n => let (ks', k) := next_key ks e in let (gs', b') := gen gs k in b :: data gen next_key gs' ks' (S e) b' n
  end.

(** The gradient is larger than the limit: its norm is infinite or a larger number. *)
Definition exceeds (l : R) (g : list flt) : Prop :=
  f_norm g = PInf \/ exists n, f_norm g = Fin n /\ (l < n)%R.
(** The last [k] elements, or all if there are fewer. *)
Definition lastn {A} (k : nat) (l : list A) : list A := skipn (length l - k) l.

(** The callback [c] asks for the end of the run after the episode [r], which follows the episodes [past]. *)
Definition wants_stop (c : cb) (past : list rec) (r : rec) : Prop :=
  match c with
  | CEpisode (Some k) => (k <= Z.of_nat (r_e r))%Z
  | CNan => has_nan (r_p r) = true
  | CTiming limit => (limit < elapsed (r_e r))%R
  | CTag t => exists l, tags (r_e r) = Some l /\ In t l
  | CLogGrads (Some l) k _ =>
      exists before w rest, r_g r = before ++ w :: rest /\
        Forall (exceeds l) (lastn k (concat (map r_g past) ++ before ++ [w]))
  | _ => False
  end.

(** None of the callbacks asks for the end after an episode of [h] that is not the last one ([past] came before). *)
Definition undisturbed (cs : list cb) (past h : list rec) : Prop :=
  forall h1 r r' h2 c, h = h1 ++ r :: r' :: h2 -> In c cs -> ~ wants_stop c (past ++ h1) r.
(** Some callback asks for the end after the last episode. *)
Definition stop_at_end (cs : list cb) (past h : list rec) : Prop :=
  exists h1 r c, h = h1 ++ [r] /\ In c cs /\ wants_stop c (past ++ h1) r.
(** Callbacks that never ask for the end. *)
Definition never_stops (c : cb) : Prop :=
  match c with
  | CEval _ | CEvalXy _ _ _ _ | CAverage _ _ | CSave _ _ _ _ _ _ | CCheckpoint _ | CEpisode None | CLogGrads None _ _ => True
  | _ => False
  end.

(** A callback as constructed. *)
Definition fresh (c : cb) : Prop :=
  match c with
  | CEvalXy _ _ _ last => last = None
  | CSave _ _ _ _ value q => value = 0%R /\ q = []
  | CLogGrads _ _ dq => dq = []
  | CCheckpoint sv => sv = None
  | _ => True
  end.

(** The callback constructed as [c0] has become [c] in the episodes [h], whatever metrics the other callbacks gave it. *)
Inductive lived (c0 : cb) : list rec -> cb -> Prop :=
| lived_new : fresh c0 -> lived c0 [] c0
| lived_on h c e m p g b o c' m' k : lived c0 h c -> cb_step has_nan elapsed tags c e m p g b o = Ok (c', m', k) ->
    lived c0 (h ++ [mkRec e p o g]) c'.

(** The same, with the metrics that it has been called with. *)
Inductive called (c0 : cb) : list (rec * metrics) -> cb -> Prop :=
| called_new : called c0 [] c0
| called_on h c e m p g b o c' m' k : called c0 h c -> cb_step has_nan elapsed tags c e m p g b o = Ok (c', m', k) ->
    called c0 (h ++ [(mkRec e p o g, m)]) c'.

(** The parameters of the last episode in [h] whose number is a multiple of [every]. *)
Definition evaluated (every : Z) (h : list rec) (r : rec) : Prop :=
  exists h1 h2, h = h1 ++ r :: h2 /\ (Z.of_nat (r_e r) mod every = 0)%Z /\
    Forall (fun r' => (Z.of_nat (r_e r') mod every <> 0)%Z) h2.

(** The file of the parameters of episode [e], when [n] parameter sets are saved. *)
Definition params_file (fmt : flt -> string) (base : string) (n : nat) (e : nat) (value : flt) : string :=
  if n =? 1 then (base ++ ".pickle")%string
  else (base ++ "_episode=" ++ str_nat e ++ "_value=" ++ fmt value ++ ".pickle")%string.

(** Mean of the numbers. *)
Definition mean (l : list R) : R := (fold_right Rplus 0 l / INR (length l))%R.
(** The numbers among floating point values. *)
Definition numbers (l : list flt) : list R := flat_map (fun x => match x with Fin r => [r] | _ => [] end) l.
(** The value under a path of names. *)
Inductive value_at : met -> list string -> flt -> Prop :=
| va_here x : value_at (MNum x) [] x
| va_key d k m path x : dget String.eqb d k = Some m -> value_at m path x -> value_at (MDict d) (k :: path) x.
(** The score of an episode: the mean of the tracked metrics if the episode is evaluated (not a number if one of them is not),
    otherwise 1e16. *)
Definition scored (zooms : list (list string)) (every : Z) (call : rec * metrics) (x : flt) : Prop :=
  ((Z.of_nat (r_e (fst call)) mod every = 0)%Z ->
     (exists ys, Forall2 (value_at (MDict (snd call))) zooms (map Fin ys) /\ x = Fin (mean ys)) \/
     (exists vs, Forall2 (value_at (MDict (snd call))) zooms vs /\ In NaN vs /\ x = NaN)) /\
  ((Z.of_nat (r_e (fst call)) mod every <> 0)%Z -> x = Fin (10 ^ 16)%R).
(** Score number [j] is better than number [i]: smaller, or equal and earlier. *)
Definition ahead (xs : list R) (i j : nat) : Prop :=
  exists y x, nth_error xs j = Some y /\ nth_error xs i = Some x /\ ((y < x)%R \/ (y = x /\ j < i)).
End Spec.
