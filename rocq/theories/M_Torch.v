(** * Model of src/ring/utils/dataloader_torch.py: a folder of files as an endless source of batches.
    Of torch's DataLoader its order of delivery is modelled (torch.utils.data: RandomSampler, SequentialSampler, BatchSampler); the order
    drawn for an epoch is an argument.  Putting the elements of a batch together (collate) and worker processes are not modelled. *)
From Coq Require Import String ZArith Bool Arith List.
From Verif Require Import Prelude.
Import ListNotations.
Local Open Scope list_scope. Local Open Scope nat_scope.

Section Dataset.
Context {F E : Type}.
(** os.listdir, parse_path and pickle_load *)
Variable listdir : list F.
Variable load : F -> result E.
Variable transform : option (E -> result E).
(** dataloader_torch.py 14-20: the files are listed once *)
Definition ds_len : nat := length listdir.
(** dataloader_torch.py 22-26 *)
Definition ds_get (idx : nat) : result E :=
  match nth_error listdir idx with
  | None => Err EIndex
  | Some file => do element <- load file; match transform with Some f => f element | None => Ok element end
  end.
End Dataset.

(** torch BatchSampler.__iter__ *)
Fixpoint batch_sampler (batch_size : nat) (drop_last : bool) (batch : list nat) (sampler : list nat) : list (list nat) :=
  match sampler with
  | [] => match batch with [] => [] | _ => if drop_last then [] else [batch] end
  | i :: r => let batch := batch ++ [i] in
              if length batch =? batch_size then batch :: batch_sampler batch_size drop_last [] r else batch_sampler batch_size drop_last batch r
  end.

Section Generator.
Context {E : Type}.
(** len(dataset), dataset[idx], and the order drawn for every epoch *)
Variable N : nat.
Variable get : nat -> result E.
Variable drawn : nat -> list nat.
Variables (batch_size : nat) (shuffle drop_last : bool).

(** iter(dl) for the epoch-th time *)
Definition iter_dl (epoch : nat) : list (list nat) := batch_sampler batch_size drop_last [] (if shuffle then drawn epoch else seq 0 N).
(** dl_iter: what it will still deliver, and how often iter(dl) was called *)
Definition gstate : Type := list (list nat) * nat.
(** dataloader_torch.py 42-49; a batch size that is not positive is refused by torch *)
Definition start : result gstate := if batch_size =? 0 then Err EValue else Ok (iter_dl 0, 1).
(** next(dl_iter): the indices are taken from the sampler before the elements are loaded *)
Definition next_dl (s : gstate) : result (list E) * gstate :=
  match fst s with
  | [] => (Err EStopIteration, s)
  | b :: r => (mapM get b, (r, snd s))
  end.
(** dataloader_torch.py 54-60.  Loading never raises StopIteration itself. *)
Definition generator (s : gstate) : result (list E) * gstate :=
  match fst s with
  | [] => next_dl (iter_dl (snd s), S (snd s))
  | _ => next_dl s
  end.
Fixpoint state_after (s : gstate) (n : nat) : gstate := match n with 0 => s | S k => snd (generator (state_after s k)) end.
(** The result of the n-th call *)
Definition nth_call (s : gstate) (n : nat) : result (list E) := fst (generator (state_after s n)).
End Generator.
