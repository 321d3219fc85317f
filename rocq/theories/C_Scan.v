(** * C01, C02: System.scan *)
From Coq Require Import String ZArith Lia Bool List.
From Verif Require Import Prelude M_Sys S_Sys P_Scan.
Import ListNotations.
Local Open Scope nat_scope.

(** C01.  In every completed scan each argument has been cut into the slices prescribed by the joint
    types ([column_ok]), and the index map points to these slices ([slices_ok]). *)
Theorem C01_scan_slices {K L G O V Y St} (W : widths) (s : System K L G O)
    (f : option Y -> idx_map -> list (piece V) -> St -> result (Y * St)) tys args (reverse : bool) st ys st' :
  length (link_types s) = num_links s ->
  scan W s f tys args reverse st = Ok (ys, st') ->
  exists cols rows im outs,
    length args = length tys /\
    Forall2 (fun ta col => column_ok W (link_types s) (fst ta) (snd ta) col) (combine tys args) cols /\
    transposed (num_links s) cols rows /\
    slices_ok (qW W) (link_types s) (im_q im) /\ slices_ok (dW W) (link_types s) (im_d im) /\
    calls f im None st (if reverse then rev rows else rows) outs st' /\
    ys = (if reverse then rev outs else outs).
Proof. exact (scan_correct W s f tys args reverse st ys st'). Qed.
Print Assumptions C01_scan_slices.

(** The cut is unique, so [column_ok] leaves no freedom. *)
Theorem C01_cut_unique {V} ws (xs : list V) ps ps' : splits ws xs ps -> splits ws xs ps' -> ps = ps'.
Proof. exact (splits_unique ws xs ps ps'). Qed.
Print Assumptions C01_cut_unique.

(** C01/C02, converse: with correctly sized arguments the scan performs exactly these calls and
    completes whenever the calls do; no hidden failure. *)
Theorem C02_scan_complete {K L G O V Y St} (W : widths) (s : System K L G O)
    (f : option Y -> idx_map -> list (piece V) -> St -> result (Y * St))
    tys args (reverse : bool) st cols rows im outs st' :
  length (link_types s) = num_links s ->
  length args = length tys ->
  Forall2 (fun ta col => column_ok W (link_types s) (fst ta) (snd ta) col) (combine tys args) cols ->
  transposed (num_links s) cols rows ->
  slices_ok (qW W) (link_types s) (im_q im) -> slices_ok (dW W) (link_types s) (im_d im) ->
  calls f im None st (if reverse then rev rows else rows) outs st' ->
  scan W s f tys args reverse st = Ok (if reverse then rev outs else outs, st').
Proof. exact (scan_complete W s f tys args reverse st cols rows im outs st'). Qed.
Print Assumptions C02_scan_complete.

Theorem C02_scan_rejects {K L G O V Y St} (W : widths) (s : System K L G O)
    (f : option Y -> idx_map -> list (piece V) -> St -> result (Y * St)) tys args reverse st qs ds :
  have_widths (qW W) (link_types s) qs -> have_widths (dW W) (link_types s) ds ->
  ~ In TOther tys ->
  (length args <> length tys \/
   exists t arg, In (t, arg) (combine tys args) /\
     length arg <> match t with TL => num_links s | TQ => list_sum qs | _ => list_sum ds end) ->
  scan W s f tys args reverse st = Err EAssertion.
Proof. exact (scan_rejects_sizes W s f tys args reverse st qs ds). Qed.
Print Assumptions C02_scan_rejects.

(** Outputs are reported in link order: entry [i] of the result was produced by the call that
    received the data of link [i], in both directions. *)
Lemma calls_length {V Y St} (f : option Y -> idx_map -> list (piece V) -> St -> result (Y * St)) im y st rows outs st' :
  calls f im y st rows outs st' -> length outs = length rows.
Proof. induction 1; simpl; auto. Qed.

Lemma calls_nth {V Y St} (f : option Y -> idx_map -> list (piece V) -> St -> result (Y * St)) im y st rows outs st' :
  calls f im y st rows outs st' -> forall i row, nth_error rows i = Some row ->
  exists yp sp y1 s1, f yp im row sp = Ok (y1, s1) /\ nth_error outs i = Some y1.
Proof.
  induction 1 as [|y st row rows y1 st1 outs st' E C IH]; intros [|i] r Hr; simpl in *; try discriminate.
  - injection Hr as <-. exists y, st, y1, st1. auto.
  - eauto.
Qed.

Lemma nth_error_rev {A} (l : list A) i : i < length l -> nth_error (rev l) i = nth_error l (length l - S i).
Proof.
  intros H. rewrite <- (rev_length l) in H. destruct (nth_error (rev l) i) as [a|] eqn:E.
  - pose proof (nth_error_nth _ _ a E) as N. rewrite rev_nth in N by (rewrite rev_length in H; auto).
    symmetry. rewrite <- N. apply nth_error_nth'. rewrite rev_length in H. lia.
  - apply nth_error_None in E. lia.
Qed.

Theorem C02_outputs_in_link_order {K L G O V Y St} (W : widths) (s : System K L G O)
    (f : option Y -> idx_map -> list (piece V) -> St -> result (Y * St)) tys args (reverse : bool) st ys st' :
  length (link_types s) = num_links s ->
  scan W s f tys args reverse st = Ok (ys, st') ->
  length ys = num_links s /\
  exists cols rows im,
    Forall2 (fun ta col => column_ok W (link_types s) (fst ta) (snd ta) col) (combine tys args) cols /\
    transposed (num_links s) cols rows /\
    forall i row, nth_error rows i = Some row ->
      exists yp sp y1 s1, f yp im row sp = Ok (y1, s1) /\ nth_error ys i = Some y1.
Proof.
  intros Hl H. destruct (scan_correct W s f tys args reverse st ys st' Hl H)
    as (cols & rows & im & outs & _ & C & T & _ & _ & R & ->).
  pose proof (calls_length _ _ _ _ _ _ _ R) as Lo. destruct T as [Tn T].
  split.
  - destruct reverse; rewrite ?rev_length in *; lia.
  - exists cols, rows, im. split; auto. split; [split; auto|]. intros i row Hi.
    destruct reverse.
    + rewrite rev_length in Lo.
      assert (Li : i < length rows) by (apply nth_error_Some; congruence).
      assert (Hr : nth_error (rev rows) (length rows - S i) = Some row).
      { rewrite nth_error_rev by lia. rewrite <- Hi. f_equal. lia. }
      destruct (calls_nth _ _ _ _ _ _ _ R _ _ Hr) as (yp & sp & y1 & s1 & E & N).
      exists yp, sp, y1, s1. split; auto. rewrite nth_error_rev by lia. rewrite <- N. f_equal. lia.
    + exact (calls_nth _ _ _ _ _ _ _ R _ _ Hi).
Qed.
Print Assumptions C02_outputs_in_link_order.

(** ** Concrete system: free root, hinge, spherical. *)
Definition ex_sys : System nat nat nat unit :=
  mkSys [(-1)%Z; 0%Z; 1%Z] [10; 11; 12] ["free"; "ry"; "spherical"]%string
        (seq 0 10) (seq 100 10) (seq 200 10) (seq 300 12) 1
        [(0%Z, 1); (2%Z, 2)] [0; 0; 9] "semi_implicit_euler" 0
        ["a"; "b"; "c"]%string None [tt; tt; tt].

Example C01_instance :
  scan builtin_widths ex_sys
    (fun (_ : option nat) im ps st => Ok (length st, st ++ [ps])) [TL; TQ; TD]
    [seq 0 3; seq 300 12; seq 500 10] false [] =
  Ok ([0; 1; 2],
      [[One 0; Many (seq 300 7); Many (seq 500 6)];
       [One 1; Many [307]; Many [506]];
       [One 2; Many (seq 308 4); Many (seq 507 3)]]).
Proof. vm_compute. reflexivity. Qed.

Example C02_instance_reverse :
  scan builtin_widths ex_sys
    (fun (_ : option nat) im ps st => Ok (length st, st ++ [ps])) [TL] [seq 0 3] true [] =
  Ok ([2; 1; 0], [[One 2]; [One 1]; [One 0]]).
Proof. vm_compute. reflexivity. Qed.

Example C02_instance_reject :
  scan builtin_widths ex_sys (fun (_ : option nat) im ps (st : unit) => Ok (0, st)) [TQ] [seq 0 11] false tt
  = Err EAssertion.
Proof. vm_compute. reflexivity. Qed.
