(** Jackknife in mixed mode: operations.py 2029-2044 (compute_on_sql_mixed_mode), 2457-2520 (compute_children_sql).
    One value column.  Not modelled: the text of the unit in the condition (2484-2486, it is not escaped), the display's base values. *)
From Coq Require Import Reals List Bool String Arith ZArith.
From Verif Require Import M_Num M_Frame M_Ops M_Leaf M_Jackknife M_SqlGlobal M_SqlLeaf M_SqlOps M_SqlJackknife M_SqlMixed.
Import ListNotations.
Open Scope string_scope.
Open Scope list_scope.

(** unique() of pandas: the first occurrences *)
Definition first_seen (l : list (option string)) : list (option string) := rev (nodup label_dec (rev l)).
(** '%s' % unit: a NULL arrives as None (2484) *)
Definition unit_text (x : option string) : string := match x with Some y => y | None => "None" end.
(** unit != "x" of SQL: neither of them NULL *)
Definition differs (x y : option string) : bool := match option_map negb (sql_eq x y) with Some true => true | _ => false end.
(** units[i * batch_size:(i + 1) * batch_size] for i in range(ceil(len(units) / batch_size)), 2499-2500 *)
Definition chunks {A} (b : nat) (l : list A) : list (list A) :=
  List.map (fun i => firstn b (skipn (i * b) l)) (seq 0 ((List.length l + b - 1) / b)).
Fixpoint all_some {A} (l : list (option A)) : option (list A) :=
  match l with [] => Some [] | None :: _ => None | Some a :: l' => option_map (cons a) (all_some l') end.
(** One column of replicates: the labels (a label may be missing) and the value; reindexing gives NaN for a key that is not there. *)
Definition rcolumn := list (skey * num).
Fixpoint slookup (k : skey) (c : rcolumn) : num :=
  match c with [] => NaN | (k', v) :: c' => if skey_dec k' k then v else slookup k c' end.
Definition labelled (q : list string * num) : skey * num := (List.map Some (fst q), snd q).

Section Mixed.
  Variable parse : string -> cond.
  Variable dbo : query -> list (skey * option R) -> list (skey * option R).
  (** the order in which the database returns the rows of SELECT DISTINCT *)
  Variable dbd : list bucket -> list bucket.
  Variable psort : cum_how -> bool -> nat -> rframe -> rframe.
  Variables (m : otree) (split_by : list string) (unit : string).

  (** batch_size 1, 2480-2496: SELECT * FROM table WHERE unit != "x", the child on it, and, with split_by, the slices that have the
      unit joined (LEFT) with the result: a slice without rows gets a row of NaN, whose other labels are NaN.
      [su]: slice_and_units.  None is an exception. *)
  Definition without_unit (x : option string) (t : stable) : stable := filter (fun r => differs (Some (unit_text x)) (slab r unit)) t.
  Definition loo_one (su : list bucket) (t : stable) (x : option string) : option rcolumn :=
    match mixed parse dbo psort m split_by (without_unit x t) with
    | None => None
    | Some loo => Some
        match split_by with
        | [] => List.map labelled loo
        | _ => flat_map (fun b =>
                 match filter (fun q => if skey_dec (List.map Some (firstn (List.length split_by) (fst q))) (fst b) then true else false) loo with
                 | [] => [(fst b ++ repeat None (List.length (extra_idx m)), NaN)]
                 | rows => List.map labelled rows
                 end) (filter (fun b => match sql_eq (snd b) x with Some true => true | _ => false end) su)
        end
    end.
  (** batch_size > 1, 2497-2520: UNNEST(units) JOIN table ON meterstick_resample_idx != unit, the child split by that column too;
      with split_by the result is joined (INNER) with slice_and_units; unstack makes one column per unit that is there (sorted; the
      order of the columns does not matter).  UNNEST of a list with None is not valid SQL. *)
  Definition resampled (t : stable) (units : list (option string)) : stable :=
    flat_map (fun x => List.map (relabel x) (filter (fun r => differs x (slab r unit)) t)) units.
  Definition unit_at (q : list string * num) : option string := nth_error (fst q) (List.length split_by).
  Definition loo_batch (su : list bucket) (t : stable) (units : list (option string)) : option (list rcolumn) :=
    if existsb (fun x => match x with None => true | _ => false end) units then None else
    match mixed parse dbo psort m (split_by ++ [resample_idx]) (resampled t units) with
    | None => None
    | Some loo =>
        let loo := match split_by with
                   | [] => loo
                   | _ => filter (fun q => if in_dec bucket_dec (List.map Some (firstn (List.length split_by) (fst q)), unit_at q) su then true else false) loo
                   end in
        Some (List.map (fun x => List.map (fun q => labelled (drop_at (List.length split_by) (fst q), snd q))
                                          (filter (fun q => if label_dec (unit_at q) x then true else false) loo))
                       (first_seen (List.map unit_at loo)))
    end.
  (** slice_and_units is SELECT DISTINCT split_by, unit (2462-2474); compute_on_children concatenates the columns (1811-1825, raises
      if there is none); point_est.join(std) (2035-2037).  batch_size or 1 (2461). *)
  Definition jackknife_mixed (where_ : list string) (batch_size : nat) (t : stable) : option (list (list string * num * num * Z)) :=
    let t := sub_table parse where_ t in
    let su := dbd (buckets split_by unit t) in
    let units := first_seen (List.map snd su) in
    let columns := match batch_size with
                   | 0 | 1 => all_some (List.map (loo_one su t) units)
                   | b => option_map (@List.concat _) (all_some (List.map (loo_batch su t) (chunks b units)))
                   end in
    match units, columns, mixed parse dbo psort m split_by t with
    | _ :: _, Some cols, Some points =>
        Some (List.map (fun q => let l := List.map (slookup (List.map Some (fst q))) cols in (fst q, snd q, jk_stderr l, dof_of l)) points)
    | _, _, _ => None
    end.
End Mixed.
