(** * Every document that can be loaded gives a well formed system (C16). *)
From Coq Require Import Reals ZArith String Ascii Lia Bool List.
From Verif Require Import Prelude M_Sys M_Math M_Geom M_Xml S_Sys P_Scan P_Sys P_XmlLoad C_Xml.
Import ListNotations.
Local Open Scope string_scope.
Local Open Scope list_scope.

Section Load.
Context {J : Type}.
Variable W : widths.
Variable print_int : Z -> string.
Variable float_of : string -> option R.
Variable jinit : list string -> result (list J).
Notation load := (load W print_int float_of jinit).

(** Parents of rows numbered from [idx]. *)
Definition earlier (rows : list row) (idx : nat) : Prop := forall k r, nth_error rows k = Some r -> (-1 <= r_parent r < Z.of_nat (idx + k))%Z.
Lemma earlier_app a b idx : earlier a idx -> earlier b (idx + length a) -> earlier (a ++ b) idx.
Proof.
  intros A B k r H. destruct (Nat.lt_ge_cases k (length a)) as [L|L].
  - rewrite nth_error_app1 in H by exact L. exact (A k r H).
  - rewrite nth_error_app2 in H by exact L. specialize (B _ _ H). replace (idx + length a + (k - length a))%nat with (idx + k)%nat in B by lia. exact B.
Qed.
Lemma body_row_parent a kids p r : body_row W print_int a kids p = Ok r -> r_parent r = p.
Proof. unfold body_row. intros H. repeat (apply bind_Ok in H; destruct H as (? & _ & H)). injection H as <-. reflexivity. Qed.

Lemma process_body_earlier : forall e p idx rows, process_body W print_int e p idx = Ok rows -> (-1 <= p < Z.of_nat idx)%Z -> earlier rows idx.
Proof.
  fix IH 1. intros [t a ks] p idx rows H P. rewrite process_body_eq in H. apply bind_Ok in H. destruct H as (r & Hr & H). apply bind_Ok in H. destruct H as (rs & Hs & H). injection H as <-.
  apply body_row_parent in Hr.
  assert (G : forall l, (forall e, In e l -> forall p idx rows, process_body W print_int e p idx = Ok rows -> (-1 <= p < Z.of_nat idx)%Z -> earlier rows idx) ->
     forall p idx rows, process_bodies W print_int l p idx = Ok rows -> (-1 <= p < Z.of_nat idx)%Z -> earlier rows idx).
  { clear. induction l as [|c l IHl]; intros A p idx rows H P; cbn [process_bodies] in H; [injection H as <-; intros [|k] r Q; discriminate|].
    destruct (String.eqb (x_tag c) "body"); [|apply (IHl (fun e Q => A e (or_intror Q)) p idx rows H P)].
    apply bind_Ok in H. destruct H as (r1 & H1 & H). apply bind_Ok in H. destruct H as (r2 & H2 & H). injection H as <-. apply earlier_app; [apply (A c (or_introl eq_refl) p idx r1 H1 P)|].
    apply (IHl (fun e Q => A e (or_intror Q)) p (idx + length r1)%nat r2 H2). lia. }
  assert (K : forall e, In e ks -> forall p idx rows, process_body W print_int e p idx = Ok rows -> (-1 <= p < Z.of_nat idx)%Z -> earlier rows idx).
  { clear - IH. induction ks as [|c ks IHk]; intros e Q; [destruct Q|]. destruct Q as [<-|Q]; [exact (IH c)|exact (IHk e Q)]. }
  specialize (G ks K (Z.of_nat idx) (S idx) rs Hs ltac:(lia)). intros [|k] r' Q; cbn [nth_error] in Q.
  - injection Q as <-. rewrite Hr. lia.
  - specialize (G k r' Q). replace (idx + S k)%nat with (S idx + k)%nat by lia. exact G.
Qed.

Lemma process_bodies_earlier : forall l p idx rows, process_bodies W print_int l p idx = Ok rows -> (-1 <= p < Z.of_nat idx)%Z -> earlier rows idx.
Proof.
  induction l as [|c l IHl]; intros p idx rows H P; cbn [process_bodies] in H; [injection H as <-; intros [|k] r Q; discriminate|].
  destruct (String.eqb (x_tag c) "body"); [|apply (IHl p idx rows H P)].
  apply bind_Ok in H. destruct H as (r1 & H1 & H). apply bind_Ok in H. destruct H as (r2 & H2 & H). injection H as <-. apply earlier_app; [apply (process_body_earlier c p idx r1 H1 P)|].
  apply (IHl p (idx + length r1)%nat r2 H2). lia.
Qed.

(** Whatever the document: if it loads, the system is well formed (parents before children, unique names, arrays as wide as the joint types
    ask, ...) and its inertias and order of geometries are those System.parse computes. *)
Theorem C16_loaded x s : load x = Ok s -> parsed W xml_ops s.
Proof.
  unfold M_Xml.load. intros H. apply bind_Ok in H. destruct H as (? & _ & H). apply bind_Ok in H. destruct H as (dg & _ & H). apply bind_Ok in H. destruct H as (db & _ & H).
  apply bind_Ok in H. destruct H as ([w|] & _ & H); [|discriminate]. cbv zeta in H. apply bind_Ok in H. destruct H as (? & _ & H). apply bind_Ok in H. destruct H as (mn & _ & H). apply bind_Ok in H. destruct H as (op & _ & H).
  apply bind_Ok in H. destruct H as (rows & Hr & H). apply bind_Ok in H. destruct H as (world & _ & H). apply bind_Ok in H. destruct H as (dt & _ & H). apply bind_Ok in H. destruct H as (gr & _ & H).
  apply bind_Ok in H. destruct H as (s0 & Ha & H). apply (parse_parsed W xml_ops xml_laws s0 s H).
  unfold assemble in Ha. destruct rows as [|r0 rows]; [discriminate|]. apply bind_Ok in Ha. destruct Ha as (ps & _ & Ha). set (rs := r0 :: rows) in *. assert (E : link_parents s0 = map r_parent rs) by (injection Ha as <-; reflexivity).
  rewrite E. intros i p Hp. rewrite nth_error_map in Hp. destruct (nth_error rs i) as [r|] eqn:Er; [|discriminate]. injection Hp as <-.
  exact (process_bodies_earlier _ _ _ _ Hr ltac:(lia) i r Er).
Qed.
End Load.

(** A concrete document: the one System.to_str writes for the example of C_Xml.v. *)
Example C16_loaded_nonvacuous : exists x s', M_Xml.load builtin_widths print_z read3 unit_init x = Ok s' /\ parsed builtin_widths xml_ops s'.
Proof.
  destruct C16_example as (x & s' & order & x' & _ & L & _). exists x, s'. split; [exact L|]. exact (C16_loaded builtin_widths print_z read3 unit_init x s' L).
Qed.
Print Assumptions C16_loaded.
