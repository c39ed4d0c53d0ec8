(** SQL generated for operations (operations.py, diversity.py), run on a table, and the same tree of
    metrics computed by pandas on the same data.

    A query is an abstract syntax tree; a table of the WITH clause is nested at the place where it is used
    (that the names of the WITH clause refer to the right query is C12; tables that the code merges because they
    differ in their columns only stay separate tables here).  The child has one value column;
    index columns hold labels; column names are used as they are (their escaping is C09). *)
From Coq Require Import Reals List Bool String Arith.
From Verif Require Import M_Num M_Frame M_Ops M_SqlGlobal M_SqlLeaf.
Import ListNotations.
Open Scope string_scope.
Open Scope list_scope.

(** ** Queries *)
Inductive cell := Lab (s : string) | Num (r : R) | Arr (l : list R) | Null.
(** c, or t.c *)
Inductive cref := Plain (c : string) | Of (t c : string).
(** ORDER BY c, or CASE c WHEN o1 THEN 0 WHEN o2 THEN 1 ... ELSE n END; DESC *)
Inductive okey := KCol (c : string) (desc : bool) | KCase (c : string) (order : list string) (desc : bool).
Inductive vx :=
  | VRef (c : cref) | VNum (r : R)
  | VAdd (a b : vx) | VSub (a b : vx) | VMul (a b : vx)
  | VDiv (a b : vx)                                        (* IF((b) = 0, NULL, (a) / (b)), sql.py 27 *)
  | VNeg (a : vx) | VPow2 (a : vx) | VLog (a : vx)
  | VSumOver (c : string) (partition : list string)        (* SUM(c) OVER (PARTITION BY partition) *)
  | VCumOver (c : string) (partition : list string) (order : list okey)
      (* SUM(c) OVER (PARTITION BY .. ORDER BY .. ROWS BETWEEN UNBOUNDED PRECEDING AND CURRENT ROW) *)
  | VSum (a : vx)                                          (* aggregate SUM(a) *)
  | VCountIfLess (c : string) (share : R)                  (* aggregate COUNTIF(c < share) *)
  | VSumArr (c : string).                                  (* (SELECT SUM(x) FROM UNNEST(c) AS x) *)
(** A column of a SELECT: a column of the source as it is, a numeric expression, or
    ARRAY_AGG(c ORDER BY c DESC LIMIT k). *)
Inductive cx := Pass (c : string) | Expr (x : vx) | TopArray (c : string) (k : nat).
(** c1 = "v1" AND c2 = "v2" ..., or NOT of it *)
Inductive wx := WEq (l : list (string * string)) | WNot (l : list (string * string)).
Inductive sqlq :=
  | SqlLeaf (q : query) (alias : string)
  | SqlSel (cols : list (string * cx)) (from : src) (where_ : option wx) (groupby : list string)
with src :=
  | From (q : sqlq)
  | Join (t1 : string) (q1 : sqlq) (t2 : string) (q2 : sqlq) (using_ : list string)   (* CROSS JOIN if using_ is [] *)
  | Full (t1 : string) (q1 : sqlq) (t2 : string) (q2 : sqlq) (using_ : list string).  (* FULL JOIN; CROSS JOIN if using_ is [] *)

(** Sql.groupby, Sql.columns, Sql.all_columns (sql.py 739-741) *)
Definition groupby_of (q : sqlq) : list string := match q with SqlLeaf q _ => q_by q | SqlSel _ _ _ g => g end.
Definition columns_of (q : sqlq) : list string := match q with SqlLeaf _ a => [a] | SqlSel cols _ _ _ => List.map fst cols end.
Definition all_columns (q : sqlq) : list string := groupby_of q ++ filter (fun c => negb (mem c (groupby_of q))) (columns_of q).

(** ** Meaning *)
Definition row := string -> cell.
Definition env := cref -> cell.
Definition number (c : cell) : option R := match c with Num r => Some r | _ => None end.
Definition label (c : cell) : option string := match c with Lab s => Some s | _ => None end.
Definition of_number (x : option R) : cell := match x with Some r => Num r | None => Null end.
Definition of_label (x : option string) : cell := match x with Some s => Lab s | None => Null end.
(** SUM: NULLs are skipped, the sum of no number is NULL *)
Definition ssum (l : list (option R)) : option R := match nonnull l with [] => None | l' => Some (Rsum l') end.
Definition key_of (cols : list string) (e : env) : skey := List.map (fun c => label (e (Plain c))) cols.
Definition same_key (cols : list string) (e e' : env) : bool := if skey_dec (key_of cols e) (key_of cols e') then true else false.
Definition num_at (e : env) (c : string) : option R := number (e (Plain c)).
Definition vdiv (x y : option R) : option R :=
  match y with Some b => if Reqb b 0 then None else option_map (fun a => a / b)%R x | None => None end.
Definition vlog (x : option R) : option R := match x with Some a => if Rltb 0 a then Some (ln a) else None | None => None end.
(** [all]: the rows of the source after WHERE (or of the group); [pre]: the rows up to the current one, in
    the order of the window; [e]: the current row. *)
Fixpoint value (all pre : list env) (e : env) (x : vx) : option R :=
  match x with
  | VRef c => number (e c)
  | VNum r => Some r
  | VAdd a b => lift2 Rplus (value all pre e a) (value all pre e b)
  | VSub a b => lift2 Rminus (value all pre e a) (value all pre e b)
  | VMul a b => lift2 Rmult (value all pre e a) (value all pre e b)
  | VDiv a b => vdiv (value all pre e a) (value all pre e b)
  | VNeg a => option_map Ropp (value all pre e a)
  | VPow2 a => option_map (fun x => x * x)%R (value all pre e a)
  | VLog a => vlog (value all pre e a)
  | VSumOver c part => ssum (List.map (fun r => num_at r c) (filter (same_key part e) all))
  | VCumOver c part _ => ssum (List.map (fun r => num_at r c) (filter (same_key part e) pre))
  | VSum a => ssum (List.map (fun r => value all pre r a) all)
  | VCountIfLess c share => Some (INR (List.length (filter (fun r => match num_at r c with Some a => Rltb a share | None => false end) all)))
  | VSumArr c => match e (Plain c) with Arr (a :: l) => Some (Rsum (a :: l)) | _ => None end
  end.
Fixpoint insert_descR (x : R) (l : list R) : list R :=
  match l with [] => [x] | y :: l' => if Rltb y x then x :: l else y :: insert_descR x l' end.
Definition sort_descR (l : list R) : list R := fold_right insert_descR [] l.
Definition column_cell (all pre : list env) (e : env) (x : cx) : cell :=
  match x with
  | Pass c => e (Plain c)
  | Expr v => of_number (value all pre e v)
  | TopArray c k => Arr (firstn k (sort_descR (nonnull (List.map (fun r => num_at r c) all))))
  end.
Fixpoint aggregate (x : vx) : bool :=
  match x with
  | VSum _ | VCountIfLess _ _ => true
  | VAdd a b | VSub a b | VMul a b | VDiv a b => aggregate a || aggregate b
  | VNeg a | VPow2 a | VLog a => aggregate a
  | _ => false
  end.
Definition aggregate_col (x : cx) : bool := match x with Pass _ => false | Expr v => aggregate v | TopArray _ _ => true end.
Fixpoint orders (x : vx) : list (list okey) :=
  match x with
  | VCumOver _ _ o => [o]
  | VAdd a b | VSub a b | VMul a b | VDiv a b => orders a ++ orders b
  | VNeg a | VPow2 a | VLog a | VSum a => orders a
  | _ => []
  end.
(** The order of the window of a SELECT (there is at most one such column here). *)
Definition order_of (cols : list (string * cx)) : option (list okey) :=
  match flat_map (fun c => match snd c with Expr v => orders v | _ => [] end) cols with [] => None | o :: _ => Some o end.
(** Order of two rows. NULL comes first (last with DESC). *)
Definition Rcmp (a b : R) : comparison := if Rltb a b then Lt else if Rltb b a then Gt else Eq.
Definition cell_rank (x : cell) : nat := match x with Null => 0 | Num _ => 1 | Lab _ => 2 | Arr _ => 3 end.
Definition cell_cmp (x y : cell) : comparison :=
  match x, y with
  | Num a, Num b => Rcmp a b
  | Lab a, Lab b => str_cmp a b
  | _, _ => Nat.compare (cell_rank x) (cell_rank y)
  end.
Fixpoint index_in (s : string) (l : list string) : nat := match l with [] => 0 | x :: l' => if String.eqb x s then 0 else S (index_in s l') end.
Definition case_value (x : cell) (order : list string) : nat := match x with Lab s => index_in s order | _ => List.length order end.
Definition okey_cmp (k : okey) (e e' : env) : comparison :=
  let flip (desc : bool) c := if desc then CompOpp c else c in
  match k with
  | KCol c d => flip d (cell_cmp (e (Plain c)) (e' (Plain c)))
  | KCase c o d => flip d (Nat.compare (case_value (e (Plain c)) o) (case_value (e' (Plain c)) o))
  end.
Fixpoint order_cmp (o : list okey) (e e' : env) : comparison :=
  match o with [] => Eq | k :: o' => match okey_cmp k e e' with Eq => order_cmp o' e e' | c => c end end.

Fixpoint assoc {A} (c : string) (l : list (string * A)) : option A :=
  match l with [] => None | (a, x) :: l' => if String.eqb a c then Some x else assoc c l' end.
Definition equals (e : env) (p : string * string) : option bool :=
  option_map (fun s => String.eqb s (snd p)) (label (e (Plain (fst p)))).
Definition where_pass (w : option wx) (e : env) : bool :=
  let all_eq l := fold_right (fun p acc => and3 (equals e p) acc) (Some true) l in
  match w with
  | None => true
  | Some (WEq l) => match all_eq l with Some true => true | _ => false end
  | Some (WNot l) => match all_eq l with Some false => true | _ => false end
  end.
(** JOIN t2 USING (cols): equal labels, NULL equals nothing *)
Definition match_using (using_ : list string) (r1 r2 : row) : bool :=
  forallb (fun c => match label (r1 c), label (r2 c) with Some a, Some b => String.eqb a b | _, _ => false end) using_.
Definition plain_env (r : row) : env := fun c => match c with Plain c => r c | Of _ _ => Null end.
Definition join_env (t1 : string) (r1 : row) (t2 : string) (r2 : row) : env :=
  fun c => match c with Plain c => r1 c | Of t c => if String.eqb t t1 then r1 c else if String.eqb t t2 then r2 c else Null end.

(** FULL JOIN t2 USING (cols): a row without partner gets NULLs for the columns of the other table; a column of
    USING is the one of either table that is not NULL; any other column is in one of the tables. *)
Definition coalesce (x y : cell) : cell := match x with Null => y | _ => x end.
Definition full_env (t1 : string) (cols1 : list string) (t2 : string) (using_ : list string) (r1 r2 : row) : env :=
  fun c => match c with
           | Plain c => if mem c using_ then coalesce (r1 c) (r2 c) else if mem c cols1 then r1 c else r2 c
           | Of t c => if String.eqb t t1 then r1 c else if String.eqb t t2 then r2 c else Null
           end.
Definition no_row : row := fun _ => Null.
Definition full_join (t1 : string) (cols1 : list string) (t2 : string) (using_ : list string) (rs1 rs2 : list row) : list env :=
  let both := full_env t1 cols1 t2 using_ in
  flat_map (fun r1 => List.map (both r1) (filter (match_using using_ r1) rs2)) rs1 ++
  match using_ with
  | [] => []
  | _ => List.map (fun r1 => both r1 no_row) (filter (fun r1 => negb (existsb (match_using using_ r1) rs2)) rs1) ++
         List.map (both no_row) (filter (fun r2 => negb (existsb (fun r1 => match_using using_ r1 r2) rs1)) rs2)
  end.

(** each row with the rows up to it *)
Fixpoint prefixes {A} (seen l : list A) : list (list A * A) :=
  match l with [] => [] | x :: l' => (seen ++ [x], x) :: prefixes (seen ++ [x]) l' end.

Section Run.
  Variable parse : string -> cond.
  (** How the database orders rows: any permutation that respects the order, ties as it likes. *)
  Variable srt : list okey -> list env -> list env.

  Definition select (cols : list (string * cx)) (envs : list env) : list row :=
    let rows := match order_of cols with Some o => srt o envs | None => envs end in
    List.map (fun p => fun c => match assoc c cols with Some x => column_cell envs (fst p) (snd p) x | None => Null end) (prefixes [] rows).
  Definition select_group (cols : list (string * cx)) (by_ : list string) (envs : list env) : list row :=
    List.map (fun k => let grp := filter (fun e => if skey_dec (key_of by_ e) k then true else false) envs in
                       let e : env := fun c => match c with Plain c => of_label (match assoc c (combine by_ k) with Some l => l | None => None end) | Of _ _ => Null end in
                       fun c => if mem c by_ then e (Plain c) else match assoc c cols with Some x => column_cell grp grp e x | None => Null end)
             (match by_ with [] => [[]] | _ => nodup skey_dec (List.map (key_of by_) envs) end).
  Fixpoint run_sql (q : sqlq) (t : stable) : list row :=
    match q with
    | SqlLeaf q a => List.map (fun kv => fun c => match assoc c (combine (q_by q) (fst kv)) with
                                                  | Some l => of_label l
                                                  | None => if String.eqb c a then of_number (snd kv) else Null
                                                  end) (run_query parse q t)
    | SqlSel cols from w g =>
        let envs := filter (where_pass w) (run_src from t) in
        match g with
        | [] => if existsb (fun c => aggregate_col (snd c)) cols then select_group cols [] envs else select cols envs
        | _ => select_group cols g envs
        end
    end
  with run_src (s : src) (t : stable) : list env :=
    match s with
    | From q => List.map plain_env (run_sql q t)
    | Join t1 q1 t2 q2 using_ =>
        flat_map (fun r1 => List.map (join_env t1 r1 t2) (filter (match_using using_ r1) (run_sql q2 t))) (run_sql q1 t)
    | Full t1 q1 t2 q2 using_ => full_join t1 (all_columns q1) t2 using_ (run_sql q1 t) (run_sql q2 t)
    end.
End Run.

(** Every column that the query mentions exists in its source (a database rejects other queries). *)
Fixpoint vrefs (x : vx) : list cref :=
  match x with
  | VRef c => [c]
  | VNum _ => []
  | VAdd a b | VSub a b | VMul a b | VDiv a b => vrefs a ++ vrefs b
  | VNeg a | VPow2 a | VLog a | VSum a => vrefs a
  | VSumOver c part => Plain c :: List.map Plain part
  | VCumOver c part o => Plain c :: List.map Plain part ++ List.map (fun k => match k with KCol c _ | KCase c _ _ => Plain c end) o
  | VCountIfLess c _ | VSumArr c => [Plain c]
  end.
Definition crefs (x : cx) : list cref := match x with Pass c | TopArray c _ => [Plain c] | Expr v => vrefs v end.
Definition wrefs (w : option wx) : list cref := match w with None => [] | Some (WEq l) | Some (WNot l) => List.map (fun p => Plain (fst p)) l end.
Definition in_source (s : src) (c : cref) : bool :=
  match s, c with
  | From q, Plain c => mem c (all_columns q)
  | From _, Of _ _ => false
  | Join _ q1 _ q2 _, Plain c => mem c (all_columns q1) || mem c (all_columns q2)
  | Full _ q1 _ q2 using_, Plain c => mem c using_ || xorb (mem c (all_columns q1)) (mem c (all_columns q2))   (* not ambiguous *)
  | Join t1 q1 t2 q2 _, Of t c | Full t1 q1 t2 q2 _, Of t c => (String.eqb t t1 && mem c (all_columns q1)) || (String.eqb t t2 && mem c (all_columns q2))
  end.
Fixpoint well_scoped (q : sqlq) : bool :=
  match q with
  | SqlLeaf _ _ => true
  | SqlSel cols from w g =>
      forallb (in_source from) (flat_map (fun c => crefs (snd c)) cols ++ wrefs w ++ List.map Plain g) && scoped_src from
  end
with scoped_src (s : src) : bool :=
  match s with
  | From q => well_scoped q
  | Join _ q1 _ q2 using_ | Full _ q1 _ q2 using_ => well_scoped q1 && well_scoped q2 && forallb (fun c => mem c (all_columns q1) && mem c (all_columns q2)) using_
  end.

(** ** Trees of metrics *)
(** How CumulativeDistribution orders: by the over columns, by the list [order], by the values. *)
Inductive cum_how := CumOver | CumOrder (order : list string) | CumValues.
Inductive divm := HHI | Entropy | TopK (k : nat) | Nxx (share : R).
Inductive otree :=
  | OLeaf (m : metric) (name : string)
  | ODist (over : list string) (c : otree) (where_ : list string)
  | OCum (over : list string) (how : cum_how) (ascending : bool) (c : otree) (where_ : list string)
  | OChange (percent : bool) (cond : list string) (base : list string) (include_base : bool) (c : otree) (where_ : list string)
  | ODiv (d : divm) (over : list string) (c : otree) (where_ : list string)
  (** CompositeMetric of two metrics, and of a number and a metric *)
  | OBin (op : op2) (a b : otree) (name : string) (where_ : list string)
  | OConstL (op : op2) (r : R) (c : otree) (name : string) (where_ : list string)
  | OConstR (op : op2) (c : otree) (r : R) (name : string) (where_ : list string).

(** utils.get_extra_idx, utils.py 151-174, with return_superset=True.  When the children have different indexes it is
    the union of them, in the arbitrary order of a Python set; here in the order of the longer one. *)
Fixpoint extra_idx (m : otree) : list string :=
  match m with
  | OLeaf _ _ => []
  | ODist over c _ | OCum over _ _ c _ => over ++ extra_idx c
  | OChange _ cond _ _ c _ => cond ++ extra_idx c
  | ODiv _ _ c _ => extra_idx c                 (* diversity.py 37: extra_index = [] *)
  | OBin _ a b _ _ => if Nat.ltb (List.length (extra_idx a)) (List.length (extra_idx b)) then extra_idx b else extra_idx a
  | OConstL _ _ c _ _ | OConstR _ c _ _ _ => extra_idx c
  end.
(** What utils.get_global_filter sees. *)
Fixpoint ofilter_tree (m : otree) : ftree :=
  match m with
  | OLeaf m _ => filter_tree m
  | ODist _ c w => FNode "Distribution" w [ofilter_tree c]
  | OCum _ _ _ c w => FNode "CumulativeDistribution" w [ofilter_tree c]
  | OChange p _ _ _ c w => FNode (if p then "PercentChange" else "AbsoluteChange") w [ofilter_tree c]
  | ODiv d _ c w => FNode (match d with HHI => "HHI" | Entropy => "Entropy" | TopK _ => "TopK" | Nxx _ => "Nxx" end) w [ofilter_tree c]
  | OBin _ a b _ w => FNode "CompositeMetric" w [ofilter_tree a; ofilter_tree b]
  | OConstL _ _ c _ w | OConstR _ c _ _ w => FNode "CompositeMetric" w [ofilter_tree c]
  end.

(** Columns.add and Columns.difference on column names (sql.py 470-520) *)
Definition add_cols (a b : list string) : list string := fold_left (fun l c => if mem c l then l else l ++ [c]) b a.
Definition difference (a b : list string) : list string := filter (fun c => negb (mem c b)) a.
Definition pass_all (cols : list string) : list (string * cx) := List.map (fun c => (c, Pass c)) cols.

(** Distribution.get_sql_and_with_clause, operations.py 227-275, after the child's query; [prefix] is
    'Distribution of ', which diversity.py 46-49 removes. *)
Definition distribution_sql (prefix : string) (split_by over : list string) (child : sqlq) : sqlq :=
  let groupby := add_cols split_by over in
  let vals := filter (fun c => negb (mem c groupby)) (columns_of child) in
  SqlSel (pass_all groupby ++ List.map (fun c => (String.append prefix c, Expr (VDiv (VRef (Plain c)) (VSumOver c split_by)))) vals)
         (From child) None [].
(** get_ordered_col, operations.py 388-397 *)
Definition ordered_col (how : cum_how) (asc : bool) (c : string) : okey :=
  match how with CumOrder o => KCase c o (negb asc) | _ => KCol c (negb asc) end.
(** CumulativeDistribution.get_sql_and_with_clause, operations.py 345-386 *)
Definition cumulative_sql (split_by indexes own_idx : list string) (how : cum_how) (asc : bool) (dist : sqlq) : sqlq :=
  let vals := filter (fun c => negb (mem c indexes)) (columns_of dist) in
  SqlSel (pass_all indexes ++
          List.map (fun c => (String.append "Cumulative " c,
                              Expr (VCumOver c split_by (match how with CumValues => [ordered_col how asc c] | _ => List.map (ordered_col how asc) own_idx end)))) vals)
         (From dist) None [].
(** l[-n:] in Python, for a length of [all] columns and [nidx] index columns: n = all - nidx, and n = 0 or less keeps the
    rest from the start. *)
Definition last_values {A} (all nidx : nat) (l : list A) : list A :=
  if Nat.ltb nidx all then skipn (List.length l - (all - nidx)) l else skipn (nidx - all) l.
(** Comparison.get_sql_and_with_clause, operations.py 485-535, and the templates 603-610, 655-656 *)
Definition change_expr (percent : bool) (r b : string) : vx :=
  let r := VRef (Of "ChangeRaw" r) in let b := VRef (Of "ChangeBase" b) in
  if percent then VSub (VMul (VDiv r b) (VNum 100)) (VNum 100) else VSub r b.
Definition change_sql (percent : bool) (cond base : list string) (include_base : bool) (indexes : list string) (raw : sqlq) : sqlq :=
  let base_cond := combine cond base in
  let base_cols := difference (add_cols (groupby_of raw) (columns_of raw)) cond in
  let base_value := SqlSel (pass_all base_cols) (From raw) (Some (WEq base_cond)) [] in
  let last := last_values (List.length (all_columns raw)) (List.length indexes) in
  let using_ := difference indexes cond in
  SqlSel (pass_all indexes ++
          List.map (fun p => (String.append (fst p) (if percent then " Percent Change" else " Absolute Change"), Expr (change_expr percent (fst p) (snd p))))
                   (combine (last (all_columns raw)) (last base_cols)))
         (Join "ChangeRaw" raw "ChangeBase" base_value using_) (if include_base then None else Some (WNot base_cond)) [].
(** diversity.py 70-92, 111-135, 190-222, 257-330.  The names of the columns are plain. *)
Definition div_name (d : divm) (c : string) : string :=
  match d with HHI => String.append "HHI of " c | Entropy => String.append "Entropy of " c
             | TopK _ => String.append "Top-k's share of " c | Nxx _ => String.append "N(share) of " c end.
Definition diversity_sql (d : divm) (split_by over indexes : list string) (dist : sqlq) : sqlq :=
  let all_split_by := add_cols split_by over in
  let vals := filter (fun c => negb (mem c all_split_by)) (columns_of dist) in
  match d with
  | HHI => SqlSel (List.map (fun c => (div_name d c, Expr (VSum (VPow2 (VRef (Plain c)))))) vals) (From dist) None indexes
  | Entropy => SqlSel (List.map (fun c => (div_name d c, Expr (VNeg (VSum (VMul (VRef (Plain c)) (VLog (VRef (Plain c)))))))) vals) (From dist) None indexes
  | TopK k =>
      let arrays := SqlSel (List.map (fun c => (c, TopArray c k)) vals) (From dist) None indexes in
      SqlSel (pass_all indexes ++ List.map (fun c => (div_name d c, Expr (VSumArr c))) vals) (From arrays) None []
  | Nxx share =>
      let cum := SqlSel (pass_all indexes ++ List.map (fun c => (String.append "Cumulative " c, Expr (VCumOver c split_by [KCol c true]))) vals) (From dist) None [] in
      SqlSel (List.map (fun c => (div_name d c, Expr (VAdd (VCountIfLess (String.append "Cumulative " c) share) (VNum 1)))) vals) (From cum) None indexes
  end.
(** CompositeMetric.get_sql_and_with_clause, metrics.py 1541-1630; every child has one value column, so the result
    has one, which is named [name] (1617-1618); self.columns is None. *)
Definition vop (op : op2) : vx -> vx -> vx := match op with OpAdd => VAdd | OpSub => VSub | OpMul => VMul | OpDiv => VDiv end.
(** metrics.py 1547-1558: a constant and a query *)
Definition const_sql (f : sexpr -> sexpr) (g : vx -> vx) (name : string) (indexes : list string) (q : sqlq) : sqlq :=
  match q with
  | SqlLeaf l _ => SqlLeaf (Query (f (q_col l)) (q_where l) (q_by l)) name
  | SqlSel cols from w gb =>
      SqlSel (List.map (fun c => if mem (fst c) indexes then c else (name, match snd c with Expr x => Expr (g x) | x => x end)) cols) from w gb
  end.
(** Whether two clauses are the same (sql.is_compatible, sql.py 30-55, compares texts). *)
Definition same {A} (a b : A) : bool := if ClassicalDedekindReals.sig_not_dec (a = b) then true else false.
(** metrics.py 1591-1605: merged columns of compatible queries *)
Definition merged_sql (op : op2) (name : string) (indexes : list string) (q0 q1 : sqlq) : option sqlq :=
  match q0, q1 with
  | SqlLeaf l0 _, SqlLeaf l1 _ =>
      if same (q_where l0) (q_where l1) && same (q_by l0) (q_by l1)
      then Some (SqlLeaf (Query (sql_op op (q_col l0) (q_col l1)) (q_where l0) (q_by l0)) name) else None
  | SqlSel c0 f0 w0 g0, SqlSel c1 f1 w1 g1 =>
      if same f0 f1 && same w0 w1 && same g0 g1
      then Some (SqlSel (List.map (fun p => if mem (fst (fst p)) indexes then fst p
                                            else (name, match snd (fst p), snd (snd p) with Expr x, Expr y => Expr (vop op x y) | x, _ => x end))
                                  (combine c0 c1)) f0 w0 g0) else None
  | _, _ => None
  end.
Definition subset (a b : list string) : bool := forallb (fun c => mem c b) a.
(** metrics.py 1566-1614.  The exception when neither index contains the other (1584-1588) is not modelled: such a tree
    is not supported (S_SqlOps). *)
Definition composite_sql (op : op2) (name : string) (indexes : list string) (q0 q1 : sqlq) : sqlq :=
  let val q := filter (fun c => negb (mem c indexes)) (columns_of q) in
  let idx q := add_cols (groupby_of q) (firstn (List.length (columns_of q) - List.length (val q)) (columns_of q)) in
  let same_idx := subset (idx q0) (idx q1) && subset (idx q1) (idx q0) in
  let using_ := if same_idx then indexes else if Nat.ltb (List.length (idx q0)) (List.length (idx q1)) then idx q0 else idx q1 in
  match (if same_idx then merged_sql op name indexes q0 q1 else None) with
  | Some q => q
  | None =>
      SqlSel (pass_all indexes ++
              List.map (fun p => (name, Expr (vop op (VRef (Of "CompositeMetricTable0" (fst p))) (VRef (Of "CompositeMetricTable1" (snd p)))))) (combine (val q0) (val q1)))
             (Full "CompositeMetricTable0" q0 "CompositeMetricTable1" q1 using_) None []
  end.
(** get_sql_and_with_clause down the tree *)
Fixpoint tree_sql (glob loc indexes split_by : list string) (m : otree) : sqlq :=
  match m with
  | OLeaf m name => SqlLeaf (Query (sql_column glob loc m) glob split_by) name
  | ODist over c w =>
      distribution_sql "Distribution of " split_by over (tree_sql glob (remove (add (add [] w) loc) glob) indexes (add_cols split_by over) c)
  | OCum over how asc c w =>
      cumulative_sql split_by indexes (over ++ extra_idx c) how asc
        (distribution_sql "Distribution of " split_by over (tree_sql glob (remove (add (add [] w) loc) glob) indexes (add_cols split_by over) c))
  | OChange p cond base incl c w =>
      change_sql p cond base incl indexes (tree_sql glob (remove (add (add [] w) loc) glob) indexes (add_cols split_by cond) c)
  | ODiv d over c w =>
      diversity_sql d split_by over indexes
        (distribution_sql "" split_by over (tree_sql glob (remove (add (add [] w) loc) glob) indexes (add_cols split_by over) c))
  | OBin op a b name w =>
      composite_sql op name indexes (tree_sql glob (remove (add (add [] w) loc) glob) indexes split_by a) (tree_sql glob (remove (add (add [] w) loc) glob) indexes split_by b)
  | OConstL op r c name w =>
      const_sql (sql_op op (XNum r)) (vop op (VNum r)) name indexes (tree_sql glob (remove (add (add [] w) loc) glob) indexes split_by c)
  | OConstR op c r name w =>
      const_sql (fun x => sql_op op x (XNum r)) (fun x => vop op x (VNum r)) name indexes (tree_sql glob (remove (add (add [] w) loc) glob) indexes split_by c)
  end.
(** to_sql, metrics.py 692-714 *)
Definition op_to_sql (m : otree) (split_by : list string) : sqlq :=
  tree_sql (get_global_filter (ofilter_tree m)) [] (add_cols split_by (extra_idx m)) split_by m.
(** The columns of the result that the caller sees: index and value (compute_on_sql_sql_mode, metrics.py
    675-690). *)
Fixpoint value_name (m : otree) : string :=
  match m with
  | OLeaf _ name => name
  | ODist _ c _ => String.append "Distribution of " (value_name c)
  | OCum _ _ _ c _ => String.append "Cumulative " (String.append "Distribution of " (value_name c))
  | OChange p _ _ _ c _ => String.append (value_name c) (if p then " Percent Change" else " Absolute Change")
  | ODiv d _ c _ => div_name d (value_name c)
  | OBin _ _ _ name _ | OConstL _ _ _ name _ | OConstR _ _ _ name _ => name
  end.

(** ** pandas *)
Section Pandas.
  Variable parse : string -> cond.
  (** sort_values(extra_index, ascending) and sort_values of the column: any permutation that respects the
      order *)
  Variable psort : cum_how -> bool -> nat -> rframe -> rframe.

  (** CompositeMetric.compute_on_children, metrics.py 1446-1510: arithmetic of two Series aligns them.  When they have the
      same index columns, on the union of the keys (M_SqlLeaf.align); otherwise on the columns they share, NaN where
      the shorter one has no such key.  What pandas does with keys of the shorter one that the longer one does not have
      depends on the number of columns; they are dropped here. *)
  Definition project (idx sub k : list string) : list string := List.map (fun c => match assoc c (combine idx k) with Some s => s | None => EmptyString end) sub.
  Definition align_levels (op : op2) (idx0 idx1 : list string) (a b : rframe) : rframe :=
    match Nat.compare (List.length idx0) (List.length idx1) with
    | Eq => align op a b
    | Lt => List.map (fun kv => (fst kv, num_op op (lookup (project idx1 idx0 (fst kv)) a) (snd kv))) b
    | Gt => List.map (fun kv => (fst kv, num_op op (snd kv) (lookup (project idx0 idx1 (fst kv)) b))) a
    end.
  (** compute_on (metrics.py 440-500): filter, compute the child on split_by + extra_split_by, then the
      operation; None is an exception. *)
  Fixpoint op_compute (m : otree) (split_by : list string) (df : table) : option rframe :=
    let n := List.length split_by in
    match m with
    | OLeaf m _ => Some (compute parse m split_by df)
    | ODist over c w => option_map (distribution n) (op_compute c (split_by ++ over) (filter (pfilters parse w) df))
    | OCum over how asc c w =>
        let s := match how with
                 | CumOrder o => ByOrder (if asc then o else rev o)
                 | _ => BySort (psort how asc n)
                 end in
        option_map (cumulative_distribution n s) (op_compute c (split_by ++ over) (filter (pfilters parse w) df))
    | OChange p cond base incl c w =>
        match op_compute c (split_by ++ cond) (filter (pfilters parse w) df) with
        | Some fr => (if p then percent_change else absolute_change) n (List.length cond) base incl fr
        | None => None
        end
    | ODiv d over c w =>
        option_map (match d with HHI => hhi n | Entropy => entropy n | TopK k => top_k k n | Nxx s => nxx s n end)
                   (op_compute c (split_by ++ over) (filter (pfilters parse w) df))
    | OBin op a b _ w =>
        match op_compute a split_by (filter (pfilters parse w) df), op_compute b split_by (filter (pfilters parse w) df) with
        | Some fa, Some fb => Some (align_levels op (split_by ++ extra_idx a) (split_by ++ extra_idx b) fa fb)
        | _, _ => None
        end
    | OConstL op r c _ w =>
        option_map (List.map (fun kv => (fst kv, num_op op (Fin r) (snd kv)))) (op_compute c split_by (filter (pfilters parse w) df))
    | OConstR op c r _ w =>
        option_map (List.map (fun kv => (fst kv, num_op op (snd kv) (Fin r)))) (op_compute c split_by (filter (pfilters parse w) df))
    end.
End Pandas.
