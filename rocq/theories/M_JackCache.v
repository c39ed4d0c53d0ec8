(** Jackknife's precomputation on the cache it shares with other metrics: operations.py 2299-2394,
    metrics.py 350-366.  Entries of leaf metrics only. *)
From Coq Require Import Reals List Bool String Arith.
From Verif Require Import M_Num M_Frame M_Jackknife.
Import ListNotations.
Open Scope list_scope.

(** Sum(v), Count(v), Count(v, distinct=True); the class of the last two is the same. *)
Inductive cleaf := CSum (v : string) | CCount (v : string) (distinct : bool).
(** grouped[var].nunique(), metrics.py 1728-1729 *)
Fixpoint labels_of (v : string) (rows : table) : list string :=
  match rows with [] => [] | r :: rows' => match lab r v with Some x => x :: labels_of v rows' | None => labels_of v rows' end end.
Definition agg_nunique (v : string) (rows : table) : num := Fin (INR (List.length (nodup string_dec (labels_of v rows)))).
Definition agg_of (l : cleaf) : table -> num :=
  match l with CSum v => agg_sum v | CCount v false => agg_count v | CCount v true => agg_nunique v end.

(** Cache keys: metric, filters (a set), split_by, and the key: that of the round, or the reserved
    key of leave-one-out results for a unit. *)
Inductive rawkey := KRound | KLoo (unit : string).
Record lkey := LKey { k_leaf : cleaf; k_where : list string; k_split : list string; k_raw : rawkey }.
Definition subset (a b : list string) : bool := forallb (fun x => if in_dec string_dec x b then true else false) a.
Definition leaf_eq_dec (a b : cleaf) : {a = b} + {a <> b}.
Proof. decide equality; (apply string_dec || apply bool_dec). Defined.
Definition raw_eq_dec (a b : rawkey) : {a = b} + {a <> b}.
Proof. decide equality; apply string_dec. Defined.
Definition lkey_eqb (a b : lkey) : bool :=
  (if leaf_eq_dec (k_leaf a) (k_leaf b) then true else false) &&
  (subset (k_where a) (k_where b) && subset (k_where b) (k_where a)) &&
  (if list_eq_dec string_dec (k_split a) (k_split b) then true else false) &&
  (if raw_eq_dec (k_raw a) (k_raw b) then true else false).
Definition lcache := list (lkey * rframe).
Fixpoint get (k : lkey) (c : lcache) : option rframe :=
  match c with [] => None | (k', v) :: c' => if lkey_eqb k' k then Some v else get k c' end.
(** a dict assignment: the newest value is found first *)
Definition put (k : lkey) (v : rframe) (c : lcache) : lcache := (k, v) :: c.

Section Run.
  (** What a filter condition means; the data of the round. *)
  Variable sat : string -> drow -> bool.
  Variable df : table.
  Definition query (w : list string) : table := filter (fun r => forallb (fun c => sat c r) w) df.

  (** compute_on of a leaf: the cached result, or compute and cache *)
  Definition compute_cached (l : cleaf) (w split_by : list string) (c : lcache) : rframe * lcache :=
    let k := LKey l w split_by KRound in
    match get k c with
    | Some v => (v, c)
    | None => let v := compute_leaf (agg_of l) split_by (query w) in (v, put k v c)
    end.
  Definition is_prefix (a b : list string) : bool := if list_eq_dec string_dec (firstn (List.length a) b) a then true else false.
  (** precompute_sum_or_count_for_jackknife; [slices]: the data the Jackknife computes on *)
  Definition precompute_one (split_by : list string) (unit : string) (slices : table) (e : lkey * rframe) (c : lcache) : lcache :=
    let '(k, bucket) := e in
    let n := List.length split_by in
    if is_prefix (split_by ++ [unit]) (k_split k) then
      let total := bucket_total n (k_split k) bucket in
      let c := put (LKey (k_leaf k) (k_where k) (filter (fun x => if string_dec x unit then false else true) (k_split k)) (k_raw k)) total c in
      let kl := LKey (k_leaf k) (k_where k) (k_split k) (KLoo unit) in
      match get kl c with
      | Some _ => c
      | None => put kl (List.map (fun q => (q, xsub (M_Frame.lookup (drop_at n q) total) (lookup0 q bucket)))
                                 (loo_keys n (k_split k) slices bucket)) c
      end
    else c.
  (** Jackknife.compute_slices 2324-2343: the leaves of the child, with their filters and operation
      levels, are computed with split_by + [unit]; then every Sum and Count result of the round in
      the cache goes through precompute_one.  [w]: the filters of the Jackknife. *)
  Definition is_round (k : lkey) : bool := match k_raw k with KRound => true | _ => false end.
  Definition jackknife_precompute (w : list string) (leaves : list (cleaf * list string * list string))
      (split_by : list string) (unit : string) (c : lcache) : lcache :=
    let c1 := fold_left (fun c q => let '(l, wl, lv) := q in snd (compute_cached l (w ++ wl) (split_by ++ [unit] ++ lv) c)) leaves c in
    fold_left (fun c e => precompute_one split_by unit (query w) e c) (filter (fun e => is_round (fst e)) c1) c1.
End Run.
