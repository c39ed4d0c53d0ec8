(** What C74 compares, and when. *)
From Coq Require Import Reals List Bool String Permutation Sorted.
From Verif Require Import M_Num M_Frame S_Ops M_Ops M_SqlGlobal M_SqlLeaf M_SqlOps M_OpList.
Import ListNotations.
Open Scope list_scope.

(** sort_values by index levels (all labels after the first n) of a frame with several columns, and of one column. *)
Definition label_order (asc : bool) (n : nat) (a b : list string) : Prop :=
  (if asc then key_cmp (skipn n a) (skipn n b) else key_cmp (skipn n b) (skipn n a)) <> Gt.
(** sort_values of a column: missing values last. *)
Definition value_order (asc : bool) (x y : num) : Prop :=
  y = NaN \/ (x <> NaN /\ (if asc then xlt y x else xlt x y) = false).
Definition sorts_labels {A} (srt : bool -> nat -> list (list string * A) -> list (list string * A)) : Prop :=
  forall asc n l, Permutation (srt asc n l) l /\ StronglySorted (fun a b => label_order asc n (fst a) (fst b)) (srt asc n l).
Definition sorts_values (srt : bool -> nat -> rframe -> rframe) : Prop :=
  forall asc n l, Permutation (srt asc n l) l /\ StronglySorted (fun a b => value_order asc (snd a) (snd b)) (srt asc n l).
(** pandas sorts, one column or several. *)
Definition frames_sort (psort : cum_how -> bool -> nat -> rframe -> rframe) (lsort : bool -> nat -> wframe -> wframe) : Prop :=
  sorts_labels (psort CumOver) /\ sorts_values (psort CumValues) /\ sorts_labels lsort.

(** Orders name every label once; diversity indices are of metrics without index columns of their own. *)
Fixpoint regular (m : otree) : Prop :=
  match m with
  | OLeaf _ _ => True
  | OCum _ how _ c _ => (match how with CumOrder o => NoDup o | _ => True end) /\ regular c
  | ODist _ c _ | OChange _ _ _ _ c _ | OConstL _ _ c _ _ | OConstR _ c _ _ _ => regular c
  | ODiv _ _ c _ => extra_idx c = [] /\ regular c
  | OBin _ a b _ _ => regular a /\ regular b
  end.

(** Column [j] of the rows is the result [res]: every key of [res] with its value, and [other] at the keys that only the other
    metrics have. *)
Definition column_is (j : nat) (rows : wframe) (res : rframe) (other : num) : Prop :=
  (forall k, In k (List.map fst res) -> In k (List.map fst rows) /\ lookup k (wcol j rows) = lookup k res) /\
  (forall k, In k (List.map fst rows) -> ~ In k (List.map fst res) -> lookup k (wcol j rows) = other).
(** What a metric gets where it has no data and another metric of the list has. *)
Definition no_data (o : lop) : num :=
  match o with LDiv HHI _ | LDiv Entropy _ => Fin 0 | LDiv (Nxx _) _ => Fin 1 | _ => NaN end.

Section Fits.
  Variable parse : string -> cond.
  Variable psort : cum_how -> bool -> nat -> rframe -> rframe.
  Variables (o : lop) (w : list string) (ms : list otree) (lw split_by : list string) (df : table).
  (** What the operation is applied to: the metric by split_by and the columns of the operation, under both filters. *)
  Definition child_of (m : otree) : option rframe := op_compute parse psort m (split_by ++ lop_over o) (filter (pfilters parse lw) (filter (pfilters parse w) df)).
  Definition shares (fr : rframe) : rframe := distribution (List.length split_by) fr.
  (** Wherever metric m has a share and the order has the label, every metric of the list has a share. *)
  Definition all_have_shares (order : list string) (m : otree) : Prop :=
    forall fr k l, child_of m = Some fr -> In l order -> skipn (List.length split_by) k = [l] -> lookup k (shares fr) <> NaN ->
    forall m' fr', In m' ms -> child_of m' = Some fr' -> lookup k (shares fr') <> NaN.
  (** For a cumulative distribution by values: no two equal shares of m in a slice; by an order: as above. *)
  Definition lop_fits (m : otree) : Prop :=
    match o with
    | LCum _ CumValues _ => forall fr k k' s, child_of m = Some fr -> In (k, s) (shares fr) -> In (k', s) (shares fr) ->
                              firstn (List.length split_by) k = firstn (List.length split_by) k' -> s <> NaN -> k = k'
    | LCum _ (CumOrder order) _ => all_have_shares order m
    | _ => True
    end.
  (** The operation is well formed: an order is for one column and names every label once, and the metrics have no
      index columns of their own. *)
  Definition lop_supported : Prop :=
    (forall m, In m ms -> regular m) /\
    match o with
    | LCum over (CumOrder order) _ => List.length over = 1%nat /\ NoDup order /\ forall m, In m ms -> extra_idx m = []
    | _ => True
    end.
End Fits.
