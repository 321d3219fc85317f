(** * Specification: what training data look like.  See C68. *)
From Coq Require Import Reals ZArith Bool String List.
From Verif Require Import Prelude M_Sys M_Math M_Rcmg.
Import ListNotations.

Section Spec.
Context {K L G O : Type}.
Implicit Type s : System K L G O.
(** The IMU [n] is attached to the segment [seg]: it is a link whose name begins with "imu" and whose parent is the segment. *)
Definition worn_at s (i : nat) (n seg : string) : Prop :=
  nth_error (link_names s) i = Some n /\ is_imu_name n = true /\
  exists j, nth_error (link_parents s) i = Some (Z.of_nat j) /\ nth_error (link_names s) j = Some seg.
(** ... and no later link is another such IMU *)
Definition last_worn s (n seg : string) : Prop := exists i, worn_at s i n seg /\ forall i' n', (i < i')%nat -> ~ worn_at s i' n' seg.
Definition bare s (seg : string) : Prop := forall i n, ~ worn_at s i n seg.
(** Names of the links attached to the world, and of the others *)
Definition roots s : list string := map fst (filter (fun np => Z.eqb (snd np) (-1)) (combine (link_names s) (link_parents s))).
Definition non_roots s : list string := map fst (filter (fun np => negb (Z.eqb (snd np) (-1))) (combine (link_names s) (link_parents s))).
End Spec.

(** Names of the features of a segment *)
Definition imu_features (worn mag : bool) : list string := ["acc"%string; "gyr"%string] ++ if worn && mag then ["mag"%string] else [].

(** The entry of a dictionary of dictionaries *)
Definition feature (X : data) (seg name : string) : option arr :=
  match dget String.eqb X seg with Some (VDict d) => dget String.eqb d name | _ => None end.
Definition has_features (X : data) (seg : string) (names : list string) : Prop :=
  exists d, dget String.eqb X seg = Some (VDict d) /\ map fst d = names.

(** The numbers of an array at one time *)
Definition sample (a : arr) (t : nat) : list R :=
  match a with
  | ASeries l => match nth_error l t with Some v => [vx v; vy v; vz v] | None => [] end
  | AQuats l => match nth_error l t with Some q => [qw q; qx q; qy q; qz q] | None => [] end
  | ARows l => nth t l []
  | AVec _ | AScalar _ => []
  end.
Definition maybe (a : option arr) (t : nat) : list R := match a with Some a => sample a t | None => [] end.
