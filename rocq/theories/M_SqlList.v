(** SQL generated for a MetricList of operations and leaf metrics (metrics.py 1100-1350), run on a table, and the
    same list computed by pandas.

    As in M_SqlOps a table of the WITH clause is nested at the place where it is used, so tables that the code merges
    because they differ in their columns only stay separate; every child has one value column.  The list is
    the root, name_tmpl and rename_columns are None. *)
From Coq Require Import Reals List Bool String Arith NArith.
From Verif Require Import M_Num M_Frame M_SqlGlobal M_SqlText M_SqlLeaf M_SqlOps.
Import ListNotations.
Open Scope string_scope.
Open Scope list_scope.

(** ** Columns.add (sql.py 432-468) *)
(** Column.alias with a suffix, sql.py 265-270 *)
Definition with_suffix (a : string) (n : nat) : string := match n with O => a | _ => String.append a (String.append "_" (of_chars (str_of_N (N.of_nat n)))) end.
Fixpoint free_alias (fuel n : nat) (a : string) (used : list string) : string :=
  match fuel with O => with_suffix a n | S f => if mem (with_suffix a n) used then free_alias f (S n) a used else with_suffix a n end.
(** A column whose expression is there already is not added; when its alias is there it gets a suffix. *)
Definition add_column {A} (cols : list (string * A)) (c : string * A) : list (string * A) :=
  if existsb (fun d => same (snd d) (snd c)) cols then cols
  else cols ++ [(free_alias (List.length cols) 0 (fst c) (List.map fst cols), snd c)].

(** ** A query with several columns *)
Inductive ltable :=
  | LLeaf (cols : list (string * sexpr)) (wh by_ : list string)
  | LSel (cols : list (string * cx)) (from : src) (where_ : option wx) (groupby : list string).
Definition table_of (q : sqlq) : ltable :=
  match q with
  | SqlLeaf l a => LLeaf [(a, q_col l)] (q_where l) (q_by l)
  | SqlSel cols from w g => LSel cols from w g
  end.
Definition lcolumns (q : ltable) : list string := match q with LLeaf cols _ _ => List.map fst cols | LSel cols _ _ _ => List.map fst cols end.
Definition lgroupby (q : ltable) : list string := match q with LLeaf _ _ g => g | LSel _ _ _ g => g end.
Definition lall_columns (q : ltable) : list string := lgroupby q ++ filter (fun c => negb (mem c (lgroupby q))) (lcolumns q).
(** Sql.merge, sql.py 747-766, with is_compatible, sql.py 30-55: the columns of [r] are added to [q] when both have the
    same other clauses.  Simplified: two queries with an ordered window stay separate (a SELECT has at most one
    order in M_SqlOps). *)
Definition merge (q r : ltable) : option ltable :=
  match q, r with
  | LLeaf c0 w0 b0, LLeaf c1 w1 b1 => if same w0 w1 && same b0 b1 then Some (LLeaf (fold_left add_column c1 c0) w0 b0) else None
  | LSel c0 f0 w0 g0, LSel c1 f1 w1 g1 =>
      if same f0 f1 && same w0 w1 && same g0 g1 && negb (match order_of c0, order_of c1 with Some _, Some _ => true | _, _ => false end)
      then Some (LSel (fold_left add_column c1 c0) f0 w0 g0) else None
  | _, _ => None
  end.
(** Datasources.merge, sql.py 586-634, when every table has the alias MetricListChildTable: the first table that can take
    the columns, or a new one; and its place. *)
Fixpoint put (ts : list ltable) (q : ltable) : list ltable * nat :=
  match ts with
  | [] => ([q], 0%nat)
  | t :: ts' => match merge t q with Some t' => (t' :: ts', 0%nat) | None => let (us, i) := put ts' q in (t :: us, S i) end
  end.
Fixpoint put_all (ts : list ltable) (qs : list ltable) : list ltable * list nat :=
  match qs with
  | [] => (ts, [])
  | q :: qs' => let (ts', i) := put ts q in let (us, is_) := put_all ts' qs' in (us, i :: is_)
  end.

(** ** MetricList.get_sql_and_with_clause, metrics.py 1266-1350 *)
Inductive listq :=
  | One (t : ltable)
  (** SELECT index, T_i.a AS b, ... FROM T_0 FULL JOIN T_1 USING (index) FULL JOIN T_2 USING (index) ...; CROSS JOIN without index *)
  | Chain (cols : list (string * (nat * string))) (tables : list ltable) (index : list string).
(** metrics.py 1304-1349; the columns of a child are those it had before the merge (1309). *)
Definition list_query (index : list string) (qs : list sqlq) : listq :=
  let (tables, places) := put_all [] (List.map table_of qs) in
  match tables with
  | [t] => One t
  | _ => Chain (fold_left add_column (flat_map (fun p => List.map (fun a => (a, (snd p, a))) (filter (fun c => negb (mem c index)) (columns_of (fst p)))) (combine qs places)) []) tables index
  end.
Record mlist := MList { ml_children : list otree; ml_where : list string }.
Definition mfilter_tree (l : mlist) : ftree := FNode "MetricList" (ml_where l) (List.map ofilter_tree (ml_children l)).
(** utils.get_extra_idx of the list (utils.py 151-174), which raises when the children differ (metrics.py 1294); not modelled then. *)
Definition list_extra (l : mlist) : list string := match ml_children l with [] => [] | m :: _ => extra_idx m end.
Definition list_index (l : mlist) (split_by : list string) : list string := add_cols split_by (list_extra l).
(** The query of a child: metrics.py 1295-1303 *)
Definition child_sql (l : mlist) (split_by : list string) (m : otree) : sqlq :=
  let glob := get_global_filter (mfilter_tree l) in
  tree_sql glob (remove (add (add [] (ml_where l)) []) glob) (list_index l split_by) split_by m.
(** to_sql, metrics.py 692-714 *)
Definition list_to_sql (l : mlist) (split_by : list string) : listq :=
  list_query (list_index l split_by) (List.map (child_sql l split_by) (ml_children l)).
(** The columns of the query: index, then values. *)
Definition list_columns (q : listq) : list string :=
  match q with One t => lall_columns t | Chain cols _ index => index ++ List.map fst cols end.

(** ** Meaning *)
(** A column of USING is the first that is not NULL. *)
Fixpoint coal (j : list row) (c : string) : cell := match j with [] => Null | r :: j' => coalesce (r c) (coal j' c) end.
(** FULL JOIN of what is joined already, n tables, with the rows of one more *)
Definition join_next (us : list string) (n : nat) (acc : list (list row)) (rows : list row) : list (list row) :=
  flat_map (fun j => List.map (fun r => j ++ [r]) (filter (match_using us (coal j)) rows)) acc ++
  match us with
  | [] => []
  | _ => List.map (fun j => j ++ [no_row]) (filter (fun j => negb (existsb (match_using us (coal j)) rows)) acc) ++
         List.map (fun r => repeat no_row n ++ [r]) (filter (fun r => negb (existsb (fun j => match_using us (coal j) r) acc)) rows)
  end.
Fixpoint join_all (us : list string) (n : nat) (acc : list (list row)) (tables : list (list row)) : list (list row) :=
  match tables with [] => acc | rows :: ts => join_all us (S n) (join_next us n acc rows) ts end.

Section Run.
  Variable parse : string -> cond.
  Variable srt : list okey -> list env -> list env.
  Definition run_table (q : ltable) (t : stable) : list row :=
    match q with
    | LLeaf cols wh by_ =>
        let rows := filter (spass parse wh) t in
        List.map (fun k => fun c => match assoc c (combine by_ k) with
                                    | Some l => of_label l
                                    | None => match assoc c cols with Some e => of_number (sexpr_value parse e (M_SqlLeaf.group by_ k rows)) | None => Null end
                                    end)
                 (match by_ with [] => [[]] | _ => nodup skey_dec (List.map (srow_key by_) rows) end)
    | LSel cols from w g => run_sql parse srt (SqlSel cols from w g) t
    end.
  Definition run_list (q : listq) (t : stable) : list row :=
    match q with
    | One q => run_table q t
    | Chain cols tables us =>
        List.map (fun j => fun c => if mem c us then coal j c else match assoc c cols with Some (i, a) => nth i j no_row a | None => Null end)
                 (match List.map (fun q => run_table q t) tables with [] => [] | rows :: ts => join_all us 1 (List.map (fun r => [r]) rows) ts end)
    end.
End Run.

(** Every column that is mentioned exists. *)
Definition table_scoped (q : ltable) : bool := match q with LLeaf _ _ _ => true | LSel cols from w g => well_scoped (SqlSel cols from w g) end.
Definition list_scoped (q : listq) : bool :=
  match q with
  | One t => table_scoped t
  | Chain cols tables us =>
      forallb table_scoped tables && forallb (fun t => forallb (fun c => mem c (lall_columns t)) us) tables &&
      forallb (fun c => match nth_error tables (fst (snd c)) with Some t => mem (snd (snd c)) (lall_columns t) | None => false end) cols
  end.

(** ** pandas *)
(** pd.concat(res, axis=1), metrics.py 1183-1189: a row for every key of any child, NaN where a child has no such key. *)
Definition concat_frames (frs : list rframe) : list (list string * list num) :=
  List.map (fun k => (k, List.map (lookup k) frs)) (nodup (list_eq_dec string_dec) (flat_map (List.map fst) frs)).
(** compute_slices, metrics.py 1124-1151: a child that raises is left out; names of the columns and rows. *)
Definition list_compute (parse : string -> cond) (psort : cum_how -> bool -> nat -> rframe -> rframe) (l : mlist) (split_by : list string) (df : table) : list string * list (list string * list num) :=
  let res := flat_map (fun m => match op_compute parse psort m split_by (filter (pfilters parse (ml_where l)) df) with Some fr => [(value_name m, fr)] | None => [] end) (ml_children l) in
  (List.map fst res, concat_frames (List.map snd res)).
