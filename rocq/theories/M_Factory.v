(** * ring.RING (src/ring/__init__.py 23-113): which trained parameters, wrapped how.

    The network is M_Filter.ring_filter.  [load] is pickle.load of a file of the package; a value of **kwargs is a
    bool, a number or anything else (None, a string, ..), with what Python takes it for in a condition. *)
From Coq Require Import Reals Lra ZArith String Bool List.
From Verif Require Import Prelude M_Math M_Ring M_Filter.
Import ListNotations.
Local Open Scope string_scope.
Local Open Scope list_scope.
Local Open Scope R_scope.

Inductive kwval : Type := KBool (b : bool) | KNum (x : R) | KOther (truthy : bool).
(** bool(v) *)
Definition truthy (v : kwval) : bool :=
  match v with KBool b => b | KNum x => if Req_EM_T x 0 then false else true | KOther b => b end.
(** The number that arithmetic takes it for; TypeError otherwise *)
Definition number (v : kwval) : result R :=
  match v with KBool b => Ok (if b then 1 else 0) | KNum x => Ok x | KOther _ => Err EType end.
(** ml/__init__.py 16 *)
Definition lpf_cutoff_freq : R := 10.
(** 73-78.  config.update(kwargs) *)
Definition config_of (kwargs : list (string * kwval)) : list (string * kwval) :=
  fold_left (fun d kv => dset String.eqb d (fst kv) (snd kv)) kwargs
    [("use_100Hz_RING", KBool true); ("use_lpf", KBool true); ("lpf_cutoff_freq", KNum lpf_cutoff_freq)].
(** 80-84: whether there is a warning; the message contains 1 / Ts *)
Definition warns (Ts : option R) : result bool :=
  match Ts with
  | None => Ok false
  | Some t => if (if Rlt_dec (1 / 40) t then true else if Rlt_dec t (1 / 200) then true else false)
              then (if Req_EM_T t 0 then Err EZeroDiv else Ok true) else Ok false
  end.
(** 86-96: the file and add_Ts *)
Definition file_100Hz : string := "ml/params/0x1d76628065a71e0f.pickle".
Definition file_any : string := "ml/params/0x13e3518065c21cd8.pickle".
Definition choose (Ts : option R) (use_100Hz : kwval) : string * bool :=
  match Ts with
  | Some t => if Req_EM_T t (1 / 100) then (if truthy use_100Hz then (file_100Hz, false) else (file_any, true)) else (file_any, true)
  | None => (file_any, true)
  end.

Section Factory.
Context {P ST : Type}.
Variable forward : P -> list Z -> ST -> arr3 -> result (arr3 * ST).
Variable init_params : list Z -> nat -> P.
Variable init_state : list Z -> ST.
Variable load : string -> result P.

(** base.py 163-202 with a cutoff frequency that may not be a number: then the filter itself raises *)
Definition lpf_kw (cutoff : kwval) (samp : option R) (f : @filter P ST) : filter :=
  match number cutoff with
  | Ok c => lpf c samp true f
  | Err e => wrap Ok (fun l => l) (fun _ _ _ _ => Err e) f
  end.
(** 23-24 and 73-113: whether it warns, and the filter *)
Definition RING (lam : lam_t) (Ts : option R) (kwargs : list (string * kwval)) : result (bool * @filter P ST) :=
  let config := config_of kwargs in
  do w <- warns Ts;
  do u100 <- dgetE String.eqb config "use_100Hz_RING";
  let (file, add_Ts) := choose Ts u100 in
  do p <- load file;
  let f := ring_filter forward init_params init_state (Some p) lam in
  let f := scale_x default_factors f in
  do ulpf <- dgetE String.eqb config "use_lpf";
  do f <- (if truthy ulpf then
             do cutoff <- dgetE String.eqb config "lpf_cutoff_freq";
             Ok (lpf_kw cutoff (match Ts with None => None | Some t => Some (1 / t) end) f)
           else Ok f);
  let f := ground_truth_heading (Ok lam) f in
  Ok (w, if add_Ts then add_ts Ts f else f).
End Factory.
