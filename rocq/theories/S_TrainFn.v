(** * Specification vocabulary for train_fn. *)
From Coq Require Import Reals String ZArith Bool Arith List.
From Verif Require Import Prelude M_Train M_Disk S_Disk M_Callbacks S_Callbacks M_TrainFn.
Import ListNotations.
Local Open Scope string_scope.
Local Open Scope list_scope.
Local Open Scope nat_scope.

Section Spec.
Context {Par Opt Batch GS Key : Type}.
Variable has_nan : Par -> bool.
Variable elapsed : nat -> R.
Variable tags : nat -> option (list string).
Variable gen : GS -> Key -> GS * Batch.
Variable prng : nat -> Key.
Variable f_params : option Par.
Variable f_init : Batch -> nat -> Par.
Variable opt_init : Par -> Opt.
Notation options := (options Par Opt Batch).

(** With these options and files, training begins with parameters [p] and optimiser state [q], and the generator is then in
    the state [gs']. *)
Inductive begins (o : options) (fs : store Par Opt) (gs : GS) : Par -> Opt -> GS -> Prop :=
| from_checkpoint name p q : t_checkpoint o = Some name ->
    stored (s_checkpoints fs) (stem name ++ ".pickle")%string (SCheckpoint p q) -> begins o fs gs p q gs
| from_filter p : t_checkpoint o = None -> f_params = Some p -> begins o fs gs p (opt_init p) gs
| from_seed b gs' : t_checkpoint o = None -> f_params = None -> gen gs (prng 1) = (gs', b) ->
    begins o fs gs (f_init b (t_seed_network o)) (opt_init (f_init b (t_seed_network o))) gs'.

(** A reason to end the run after the episode [r], which follows the episodes [past]. *)
Inductive stop_reason (o : options) (past : list (@rec Par Opt)) (r : @rec Par Opt) : Prop :=
| too_many k : t_episode o = Some k -> (k <= Z.of_nat (r_e r))%Z -> stop_reason o past r
| nan_parameters : t_nan o = true -> has_nan (r_p r) = true -> stop_reason o past r
| too_long s : t_seconds o = Some s -> (s < elapsed (r_e r))%R -> stop_reason o past r
| tagged t l : t_tag o = Some t -> tags (r_e r) = Some l -> In t l -> stop_reason o past r
| exploding l before w rest : t_grads o = Some l -> r_g r = before ++ w :: rest ->
    Forall (exceeds l) (lastn 18 (concat (map r_g past) ++ before ++ [w])) -> stop_reason o past r
| by_user c : In c (t_user o) -> wants_stop has_nan elapsed tags c past r -> stop_reason o past r.

(** The file to which callback_save_params refers, without extension. *)
Definition save_stem (uid : string) (o : options) : option string :=
  match t_save o with SaveNo => None | SaveAuto => Some uid | SavePath p => Some (stem p) end.
(** A generator without memory: what it returns depends on the key only. *)
Definition memoryless (f : Key -> Batch) : Prop := forall gs k, snd (gen gs k) = f k.
End Spec.
