(** Nth: metrics.py 1910-2056.  Sorting is a relation: sort_values does not promise an order among equal keys. *)
From Coq Require Import List Bool ZArith Permutation Sorted.
Import ListNotations.
Open Scope list_scope.
Section Nth.
(** sort keys with any total order; None is a missing key *)
Context {K V G : Type}.
Variable leb : K -> K -> bool.
Record row := { row_slice : option G; row_key : option K; row_val : option V }.
(** 1939-1941: n < 0 -> n = -n - 1, ascending flipped *)
Definition nth_init (n : Z) (ascending : bool) : nat * bool :=
  if (n <? 0)%Z then (Z.to_nat (- n - 1), negb ascending) else (Z.to_nat n, ascending).
(** 1971-1972 *)
Definition drop_missing (dropna : bool) (df : list row) : list row :=
  if dropna then filter (fun r => match row_val r with Some _ => true | None => false end) df else df.
(** pandas puts missing keys last whether ascending or not; ORDER BY puts NULL first when ascending, last
    when descending *)
Inductive engine := Pandas | BigQuery.
Definition may_precede (e : engine) (asc : bool) (a b : row) : Prop :=
  match row_key a, row_key b with
  | Some x, Some y => if asc then leb x y = true else leb y x = true
  | None, None => True
  | Some _, None => match e with Pandas => True | BigQuery => asc = false end
  | None, Some _ => match e with Pandas => False | BigQuery => asc = true end
  end.
(** 1973: df.sort_values(sort_by, ascending) *)
Definition sorts_to (e : engine) (asc : bool) (df df' : list row) : Prop :=
  Permutation df df' /\ StronglySorted (may_precede e asc) df'.
(** 1977-1979: nan if n > len(df) - 1 else df[var].values[n]; in SQL [SAFE_OFFSET(n)] of an array of n+1 elements *)
Definition nth_of (n : nat) (df : list row) : option V :=
  match nth_error df n with Some r => row_val r | None => None end.
Definition limit_offset (n : nat) (df : list row) : option V := nth_of n (firstn (n + 1) df).
(** compute_on without split_by: the values it may return *)
Definition computes (n : Z) (asc dropna : bool) (df : list row) (v : option V) : Prop :=
  let (n', asc') := nth_init n asc in exists df', sorts_to Pandas asc' (drop_missing dropna df) df' /\ v = nth_of n' df'.
(** 2041-2056: ARRAY_AGG(var [IGNORE NULLS] ORDER BY sort_by [DESC] LIMIT n+1)[SAFE_OFFSET(n)] *)
Definition query_computes (n : Z) (asc dropna : bool) (df : list row) (v : option V) : Prop :=
  let (n', asc') := nth_init n asc in exists df', sorts_to BigQuery asc' (drop_missing dropna df) df' /\ v = limit_offset n' df'.
(** 1974-1976: groupby(split_by).nth(n): the n-th row of each slice in the sorted frame, no row for a slice
    with fewer; rows without a slice are dropped.  The frame as the relation of its rows. *)
Variable geqb : G -> G -> bool.
Definition in_slice (g : G) (r : row) : bool := match row_slice r with Some g' => geqb g' g | None => false end.
Definition nth_rows (n : nat) (df' : list row) (g : G) : option (option V) :=
  option_map row_val (nth_error (filter (in_slice g) df') n).
Definition computes_slices (n : Z) (asc dropna : bool) (df : list row) (res : G -> option (option V)) : Prop :=
  let (n', asc') := nth_init n asc in exists df', sorts_to Pandas asc' (drop_missing dropna df) df' /\ forall g, res g = nth_rows n' df' g.
End Nth.
Arguments row : clear implicits.
