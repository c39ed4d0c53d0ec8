(** What C78 compares: which weights pandas can draw. *)
From Coq Require Import List String NArith.
From Verif Require Import M_Num M_Frame M_Leaf M_Slices M_Jackknife M_Bootstrap M_SqlText M_BootCache.
Import ListNotations.

(** One weight for each row, or for each unit of each slice. *)
Definition weight_count (split_by : list string) (unit : option string) (df : table) : nat :=
  match unit with None => List.length df | Some u => List.length (group_keys (split_by ++ [u]) df) end.
(** A draw of Poisson weights; the query knows the weights 0 to 18. *)
Definition weights_up_to_18 (n : nat) (ws : list nat) : Prop := List.length ws = n /\ Forall (fun w => w <= 18) ws.
(** The text that is hashed for the unit [k] (with its slice) in resample [i]. *)
Definition hashed_text (k : list string) (i : nat) : string := concat_labels (k ++ [of_chars (str_of_N (N.of_nat i))]).
(** Different units or resamples have different texts (see C54 for when they do not). *)
Definition texts_differ (n : nat) (ks : list (list string)) : Prop :=
  forall k k' i i', In k ks -> In k' ks -> 1 <= i <= n -> 1 <= i' <= n -> hashed_text k i = hashed_text k' i' -> k = k' /\ i = i'.
