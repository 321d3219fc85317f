(** * Model of validation during training: EvalXyTrainingLoopCallback.__init__ and _build_eval_fn2 (src/ring/ml/callbacks.py 26-94).
    When the callback evaluates and what becomes of its result is modelled in M_Callbacks (CEvalXy). *)
From Coq Require Import String ZArith Bool Arith List.
From Verif Require Import Prelude M_Util M_Rcmg.
Import ListNotations.
Local Open Scope string_scope. Local Open Scope list_scope. Local Open Scope nat_scope.

Section EvalXy.
(** Parameters, input and target sequences, the part of a target sequence that belongs to one link, and numbers. *)
Context {Par XS YS YL V : Type}.
Variable m : machine.
(** The filter on a batch, with lam given: callbacks.py 41-43.  The targets are handed over as well. *)
Variable apply : Par -> list XS -> list YS -> list YS.
(** The sequence of link number i of a target or an estimate, and the number of links of targets and of estimates. *)
Variable link : nat -> YS -> YL.
Variables n_links n_hat : nat.

(** callbacks.py 79-80: a single sequence is a batch of one *)
Inductive data := Single (x : XS) (y : YS) | Batch (X : list XS) (y : list YS).
Definition batched (d : data) : list XS * list YS := match d with Single x y => ([x], [y]) | Batch X y => (X, y) end.

(** ml_utils.py 343-344 *)
Definition unknown_link_names (n : nat) : list string := map (fun i => ("link" ++ str_nat i)%string) (seq 0 n).
(** jnp indexing with an index that is too large takes the last entry *)
Definition clamp_get {A} (l : list A) (i : nat) : result A := match nth_error l (Nat.min i (length l - 1)) with Some a => Ok a | None => Err EIndex end.
(** callbacks.py 55: a dictionary by link names *)
Definition by_name (value : list V) (names : list string) : result (list (string * V)) :=
  do vs <- mapM (fun p => do v <- clamp_get value (fst p); Ok (snd p, v)) (combine (seq 0 (length names)) names);
  Ok (fold_left (fun d kv => dset String.eqb d (fst kv) (snd kv)) vs []).
(** callbacks.py 53: vmap over the axis of the links *)
Definition per_link (fn : list YL -> list YL -> V) (y yhat : list YS) : result (list V) :=
  if n_links =? n_hat then Ok (map (fun i => fn (map (link i) y) (map (link i) yhat)) (seq 0 n_links)) else Err EValue.

(** callbacks.py 81-91 and 34-61.  The data is cut for the devices once; then the filter runs on every device, and the results are
    put together again. *)
Definition eval_xy (eval_metrices : list (string * (list YL -> list YL -> V))) (link_names : option (list string)) (d : data) (p : Par)
  : result (list (string * list (string * V))) :=
  let (X, y) := batched d in
  do pv <- distribute_batchsize m (length X);
  do X' <- expand_batchsize X (fst pv) (snd pv);
  do y' <- expand_batchsize y (fst pv) (snd pv);
  do y_4d <- merge_batchsize y' (fst pv) (snd pv);
  let names := match link_names with Some l => l | None => unknown_link_names n_links end in
  let out := map (fun xy => apply p (fst xy) (snd xy)) (combine X' y') in
  do yhat <- merge_batchsize out (fst pv) (snd pv);
  mapM (fun nf => do value <- per_link (snd nf) y_4d yhat; do v <- by_name value names; Ok (fst nf, v)) eval_metrices.
End EvalXy.
