(** Vocabulary for the properties of operations on result frames. *)
From Coq Require Import Reals List Bool String Permutation.
From Verif Require Import M_Num M_Frame.
Import ListNotations.
Open Scope list_scope.
Open Scope R_scope.

(** The rows (index key, value) whose first [n] labels (the split_by labels) are [g]. *)
Definition group {A} (n : nat) (g : list string) (fr : list (list string * A)) : list (list string * A) :=
  filter (fun r => if list_eq_dec string_dec (firstn n (fst r)) g then true else false) fr.
(** The value column of such a slice. *)
Definition vals (n : nat) (g : list string) (fr : list (list string * num)) : list num := List.map snd (group n g fr).
(** The present values of a slice, and their total. *)
Definition nums (n : nat) (g : list string) (fr : list (list string * num)) : list R := finite_values (vals n g fr).
Definition total (n : nat) (g : list string) (fr : list (list string * num)) : R := Rsum (nums n g fr).
(** Only numbers and missing values, no infinities. *)
Definition finite_slice (n : nat) (g : list string) (fr : list (list string * num)) : Prop :=
  Forall (fun x => x <> PInf /\ x <> NInf) (vals n g fr).
(** A slice of nonnegative numbers with positive total. *)
Definition nonneg_slice (n : nat) (g : list string) (fr : list (list string * num)) : Prop :=
  finite_slice n g fr /\ Forall (fun x => 0 <= x) (nums n g fr) /\ 0 < total n g fr.
Definition shares (n : nat) (g : list string) (fr : list (list string * num)) : list R :=
  List.map (fun x => x / total n g fr) (nums n g fr).

(** All values multiplied by c. *)
Definition scaled (c : R) (fr : list (list string * num)) : list (list string * num) :=
  List.map (fun r => (fst r, match snd r with Fin x => Fin (c * x) | y => y end)) fr.

(** The Mantel-Haenszel estimate, in percent, from strata (ka, na, kb, nb): k events of n in the
    arm a and in the baseline b. *)
Definition mh_textbook (strata : list (R * R * R * R)) : R :=
  (Rsum (List.map (fun q => let '(ka, na, kb, nb) := q in ka * nb / (na + nb)) strata) /
   Rsum (List.map (fun q => let '(ka, na, kb, nb) := q in kb * na / (na + nb)) strata) - 1) * 100.

(** The result has exactly one row with the index key [g], and its value is [x]. *)
Definition value_at (g : list string) (fr : list (list string * num)) (x : num) : Prop :=
  filter (fun r => if list_eq_dec string_dec (fst r) g then true else false) fr = [(g, x)].
