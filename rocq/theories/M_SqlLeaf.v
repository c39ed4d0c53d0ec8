(** SQL generated for leaf metrics and arithmetic on them, run on a table with NULLs, and the same
    metric computed by pandas on the same data.

    The query starts as an abstract syntax tree here (its text is the subject of C09-C15); SQL has
    the standard semantics with NULL and three-valued logic. Not modelled: infinities in the table,
    rounding, the order in which a database returns groups, extra columns of operations. *)
From Coq Require Import Reals List Bool String ZArith.
From Verif Require Import M_Num M_Frame M_Leaf M_SqlGlobal.
Import ListNotations.
Open Scope list_scope.

(** ** Data *)
(** A row of the SQL table; every column can be read as a label or as a number, None = NULL. *)
Record srow := SRow { slab : string -> option string; snum : string -> option R }.
Definition stable := list srow.
(** NULL arrives in pandas as a missing value (also in results, metrics.py 660-690). *)
Definition fetch (x : option R) : num := match x with Some a => Fin a | None => NaN end.
Definition pandas_row (r : srow) : drow := Row (slab r) (fun c => fetch (snum r c)).
Definition pandas_table (t : stable) : table := List.map pandas_row t.

(** ** Filter conditions, after parsing *)
Inductive operand := OCol (c : string) | ONum (a : R).
Inductive cmp := CLt | CLe | CGt | CGe | CEq | CNe.
Inductive cond :=
  | CNum (a : operand) (op : cmp) (b : operand)      (* x > 1 *)
  | CIs (c v : string) | CIsNot (c v : string)       (* platform == "Mobile", != *)
  | CIn (c : string) (vs : list string)              (* platform in ("Mobile", "Desktop") *)
  | CAnd (p q : cond) | COr (p q : cond) | CNot (p : cond).
Definition Rltb (a b : R) : bool := if Rlt_dec a b then true else false.
Definition Reqb (a b : R) : bool := if Req_EM_T a b then true else false.
Definition compare_with (op : cmp) (a b : R) : bool :=
  match op with
  | CLt => Rltb a b | CLe => negb (Rltb b a) | CGt => Rltb b a | CGe => negb (Rltb a b)
  | CEq => Reqb a b | CNe => negb (Reqb a b)
  end.
(** SQL: a comparison with NULL is NULL; three-valued connectives. *)
Definition lift2 {A B} (f : A -> A -> B) (x y : option A) : option B :=
  match x, y with Some a, Some b => Some (f a b) | _, _ => None end.
Definition and3 (p q : option bool) : option bool :=
  match p, q with Some false, _ | _, Some false => Some false | Some true, Some true => Some true | _, _ => None end.
Definition or3 (p q : option bool) : option bool :=
  match p, q with Some true, _ | _, Some true => Some true | Some false, Some false => Some false | _, _ => None end.
Definition soperand (o : operand) (r : srow) : option R := match o with OCol c => snum r c | ONum a => Some a end.
Fixpoint stest (p : cond) (r : srow) : option bool :=
  match p with
  | CNum a op b => lift2 (compare_with op) (soperand a r) (soperand b r)
  | CIs c v => option_map (fun s => String.eqb s v) (slab r c)
  | CIsNot c v => option_map (fun s => negb (String.eqb s v)) (slab r c)
  | CIn c vs => option_map (fun s => mem s vs) (slab r c)
  | CAnd p q => and3 (stest p r) (stest q r)
  | COr p q => or3 (stest p r) (stest q r)
  | CNot p => option_map negb (stest p r)
  end.
(** pandas df.query: comparisons with a missing value are False, except != which is True; &, |, ~ on
    booleans.  Numbers that are compared are finite here. *)
Definition poperand (o : operand) (r : drow) : num := match o with OCol c => val r c | ONum a => Fin a end.
Definition pcompare (op : cmp) (x y : num) : bool :=
  match x, y with
  | Fin a, Fin b => compare_with op a b
  | _, _ => match op with CNe => true | _ => false end
  end.
Fixpoint ptest (p : cond) (r : drow) : bool :=
  match p with
  | CNum a op b => pcompare op (poperand a r) (poperand b r)
  | CIs c v => match lab r c with Some s => String.eqb s v | None => false end
  | CIsNot c v => match lab r c with Some s => negb (String.eqb s v) | None => true end
  | CIn c vs => match lab r c with Some s => mem s vs | None => false end
  | CAnd p q => ptest p r && ptest q r
  | COr p q => ptest p r || ptest q r
  | CNot p => negb (ptest p r)
  end.

(** ** SQL aggregates *)
(** The argument of an aggregate: column c, or IF(f1 AND f2 ..., c, NULL) (sql.py 299-302); Dot
    multiplies two such arguments (metrics.py 1807-1808). *)
Inductive aarg := AIf (filters : list string) (c : colx) | AProd (a b : aarg).
Inductive sagg :=
  | SUM (e : aarg) | COUNT (e : aarg) | COUNT_DISTINCT (e : aarg) | AVG (e : aarg) | MAX (e : aarg) | MIN (e : aarg)
  | VAR_SAMP (e : aarg) | VAR_POP (e : aarg) | STDDEV_SAMP (e : aarg) | STDDEV_POP (e : aarg)
  | COVAR_SAMP (e f : aarg) | COVAR_POP (e f : aarg) | CORR (e f : aarg).
(** A column of the query: arithmetic on aggregates (sql.py 313-387); XDiv is
    IF((b) = 0, NULL, (a) / (b)), XSqrt is SAFE.SQRT, XSq is SAFE.POWER(a, 2). *)
Inductive sexpr :=
  | XAgg (a : sagg) | XNum (r : R)
  | XAdd (a b : sexpr) | XSub (a b : sexpr) | XMul (a b : sexpr) | XDiv (a b : sexpr)
  | XSqrt (a : sexpr) | XSq (a : sexpr).
(** SELECT by, col FROM table WHERE where GROUP BY by *)
Record query := Query { q_col : sexpr; q_where : list string; q_by : list string }.

(** (x * y) and POWER(x, 2) of auxiliary columns (utils.py 637-660) are SQL expressions. *)
Fixpoint scell (c : colx) (r : srow) : option R :=
  match c with
  | Col v => snum r v
  | Times a b => lift2 Rmult (scell a r) (scell b r)
  | Squared a => option_map (fun x => x * x)%R (scell a r)
  end.
(** numbers that are not NULL *)
Fixpoint nonnull {A} (l : list (option A)) : list A :=
  match l with [] => [] | Some x :: l' => x :: nonnull l' | None :: l' => nonnull l' end.
Definition avg (l : list R) : R := (Rsum l / INR (List.length l))%R.
Definition dev (l : list R) : R := Rsum (List.map (fun x => (x - avg l) * (x - avg l))%R l).
Definition codev (l : list (R * R)) : R :=
  Rsum (List.map (fun p => (fst p - avg (List.map fst l)) * (snd p - avg (List.map snd l)))%R l).
Definition unless_fewer {A} (n : nat) (l : list A) (v : R) : option R := if Nat.ltb (List.length l) n then None else Some v.
Fixpoint fold1 (f : R -> R -> R) (l : list R) : option R :=
  match l with [] => None | x :: l' => Some (match fold1 f l' with Some y => f x y | None => x end) end.

Section Run.
  (** Reading of a filter text. *)
  Variable parse : string -> cond.

  Definition sfilters (fs : list string) (r : srow) : option bool :=
    fold_right (fun f acc => and3 (stest (parse f) r) acc) (Some true) fs.
  Definition spass (fs : list string) (r : srow) : bool := match sfilters fs r with Some true => true | _ => false end.
  Definition pfilters (fs : list string) (r : drow) : bool := forallb (fun f => ptest (parse f) r) fs.

  Fixpoint sarg (e : aarg) (r : srow) : option R :=
    match e with
    | AIf fs c => if spass fs r then scell c r else None
    | AProd a b => lift2 Rmult (sarg a r) (sarg b r)
    end.
  Definition inputs (e : aarg) (rows : stable) : list R := nonnull (List.map (sarg e) rows).
  Definition pairs (e f : aarg) (rows : stable) : list (R * R) :=
    nonnull (List.map (fun r => lift2 (fun x y : R => (x, y)) (sarg e r) (sarg f r)) rows).
  (** Standard SQL: NULL inputs (and pairs with a NULL) are skipped; NULL if there are too few; CORR is
      NULL (NaN in some databases, which pandas reads the same) if one side is constant. *)
  Definition sagg_value (a : sagg) (rows : stable) : option R :=
    match a with
    | SUM e => unless_fewer 1 (inputs e rows) (Rsum (inputs e rows))
    | COUNT e => Some (INR (List.length (inputs e rows)))
    | COUNT_DISTINCT e => Some (INR (List.length (nodup Req_EM_T (inputs e rows))))
    | AVG e => unless_fewer 1 (inputs e rows) (avg (inputs e rows))
    | MAX e => fold1 Rmax (inputs e rows)
    | MIN e => fold1 Rmin (inputs e rows)
    | VAR_SAMP e => unless_fewer 2 (inputs e rows) (dev (inputs e rows) / (INR (List.length (inputs e rows)) - 1))
    | VAR_POP e => unless_fewer 1 (inputs e rows) (dev (inputs e rows) / INR (List.length (inputs e rows)))
    | STDDEV_SAMP e => unless_fewer 2 (inputs e rows) (sqrt (dev (inputs e rows) / (INR (List.length (inputs e rows)) - 1)))
    | STDDEV_POP e => unless_fewer 1 (inputs e rows) (sqrt (dev (inputs e rows) / INR (List.length (inputs e rows))))
    | COVAR_SAMP e f => let l := pairs e f rows in unless_fewer 2 l (codev l / (INR (List.length l) - 1))
    | COVAR_POP e f => let l := pairs e f rows in unless_fewer 1 l (codev l / INR (List.length l))
    | CORR e f => let l := pairs e f rows in
                  let x := dev (List.map fst l) in let y := dev (List.map snd l) in
                  if Reqb x 0 || Reqb y 0 then None else Some (codev l / (sqrt x * sqrt y))%R
    end.
  Fixpoint sexpr_value (x : sexpr) (rows : stable) : option R :=
    match x with
    | XAgg a => sagg_value a rows
    | XNum r => Some r
    | XAdd a b => lift2 Rplus (sexpr_value a rows) (sexpr_value b rows)
    | XSub a b => lift2 Rminus (sexpr_value a rows) (sexpr_value b rows)
    | XMul a b => lift2 Rmult (sexpr_value a rows) (sexpr_value b rows)
    | XDiv a b => match sexpr_value b rows with
                  | Some y => if Reqb y 0 then None else option_map (fun x => x / y)%R (sexpr_value a rows)
                  | None => None
                  end
    | XSqrt a => match sexpr_value a rows with Some x => if Rltb x 0 then None else Some (sqrt x) | None => None end
    | XSq a => option_map (fun x => x * x)%R (sexpr_value a rows)
    end.

  (** GROUP BY: NULL is a group label like any other; without GROUP BY there is one row. *)
  Definition skey := list (option string).
  Definition label_dec : forall x y : option string, {x = y} + {x <> y}.
  Proof. decide equality. apply string_dec. Defined.
  Definition skey_dec : forall a b : skey, {a = b} + {a <> b} := list_eq_dec label_dec.
  Definition srow_key (by_ : list string) (r : srow) : skey := List.map (slab r) by_.
  Definition group (by_ : list string) (k : skey) (rows : stable) : stable :=
    filter (fun r => if skey_dec (srow_key by_ r) k then true else false) rows.
  Definition run_query (q : query) (t : stable) : list (skey * option R) :=
    let rows := filter (spass (q_where q)) t in
    List.map (fun k => (k, sexpr_value (q_col q) (group (q_by q) k rows)))
             (match q_by q with [] => [[]] | _ => nodup skey_dec (List.map (srow_key (q_by q)) rows) end).

  (** ** Metrics *)
  (** Leaf metrics: those with an equivalent (M_Leaf), Max, Min, Count(distinct=True). *)
  Inductive leaf := Lf (l : leafm) | LMax (v : string) | LMin (v : string) | LDistinct (v : string).
  (** A leaf, or arithmetic on metrics (CompositeMetric), with the attribute [where_]. *)
  Inductive op2 := OpAdd | OpSub | OpMul | OpDiv.
  Inductive metric :=
    | MLeaf (l : leaf) (where_ : list string)
    | MOp (op : op2) (a b : metric) (where_ : list string)
    | MConstL (op : op2) (r : R) (a : metric) (where_ : list string)
    | MConstR (op : op2) (a : metric) (r : R) (where_ : list string)
    | MSqrt (a : metric) (where_ : list string)       (* a ** 0.5 *)
    | MSq (a : metric) (where_ : list string).        (* a ** 2 *)

  (** get_sql_columns: Count 1734-1738, Sum 1761-1762, Dot 1807-1809, Mean 1846-1853, Max 1882-1883, Min
      1906-1907, Variance 2364-2370, StandardDeviation 2408-2414, CV 2446-2456, Correlation 2520-2526,
      Cov 2629-2645.  None: the metric has no column of its own. *)
  Definition sql_columns (l : leaf) (fs : list string) : option sexpr :=
    match l with
    | Lf (LCount c) => Some (XAgg (COUNT (AIf fs c)))
    | Lf (LSum c) => Some (XAgg (SUM (AIf fs c)))
    | Lf (LDot a b normalize) => let p := AProd (AIf fs a) (AIf fs b) in Some (XAgg (if normalize then AVG p else SUM p))
    | Lf (LMean c None) => Some (XAgg (AVG (AIf fs c)))
    | Lf (LMean c (Some w)) => Some (XDiv (XAgg (SUM (AIf fs (Times w c)))) (XAgg (SUM (AIf fs w))))
    | Lf (LVar c ddof None) => Some (XAgg (if Z.eqb ddof 1 then VAR_SAMP (AIf fs c) else VAR_POP (AIf fs c)))
    | Lf (LSD c ddof None) => Some (XAgg (if Z.eqb ddof 1 then STDDEV_SAMP (AIf fs c) else STDDEV_POP (AIf fs c)))
    | Lf (LCV c ddof) => Some (XDiv (XAgg (if Z.eqb ddof 1 then STDDEV_SAMP (AIf fs c) else STDDEV_POP (AIf fs c))) (XAgg (AVG (AIf fs c))))
    | Lf (LCorr a b None) => Some (XAgg (CORR (AIf fs a) (AIf fs b)))
    | Lf (LCov a b ddof None None) =>
        if Z.eqb ddof 1 then Some (XAgg (COVAR_SAMP (AIf fs a) (AIf fs b)))
        else if Z.eqb ddof 0 then Some (XAgg (COVAR_POP (AIf fs a) (AIf fs b))) else None
    | Lf _ => None
    | LMax v => Some (XAgg (MAX (AIf fs (Col v))))
    | LMin v => Some (XAgg (MIN (AIf fs (Col v))))
    | LDistinct v => Some (XAgg (COUNT_DISTINCT (AIf fs (Col v))))
    end.
  (** get_sql_and_with_clause of the fully expanded equivalent (metrics.py 1697-1699, 1541-1608): its
      leaves are Sum and Count with the same filters, all queries are compatible and are merged. *)
  Fixpoint sql_tree (fs : list string) (t : etree) : sexpr :=
    match t with
    | ELeaf l => match sql_columns (Lf l) fs with Some x => x | None => XNum 0 end   (* None does not occur *)
    | ENum r => XNum r
    | EAdd a b => XAdd (sql_tree fs a) (sql_tree fs b)
    | ESub a b => XSub (sql_tree fs a) (sql_tree fs b)
    | EMul a b => XMul (sql_tree fs a) (sql_tree fs b)
    | EDiv a b => XDiv (sql_tree fs a) (sql_tree fs b)
    | ESqrt a => XSqrt (sql_tree fs a)
    | ESq a => XSq (sql_tree fs a)
    end.
  (** SimpleMetric.get_sql_and_with_clause, metrics.py 1688-1699 (after the filters are determined) *)
  Definition sql_leaf (l : leaf) (fs : list string) : sexpr :=
    match sql_columns l fs, l with
    | Some x, _ => x
    | None, Lf m => sql_tree fs (full (ELeaf m))
    | None, _ => XNum 0
    end.
  Definition sql_op (op : op2) : sexpr -> sexpr -> sexpr :=
    match op with OpAdd => XAdd | OpSub => XSub | OpMul => XMul | OpDiv => XDiv end.
  (** CompositeMetric.get_sql_and_with_clause, metrics.py 1539-1608, for children with one value column:
      the children's queries have the same FROM, WHERE and GROUP BY, hence are merged. *)
  Fixpoint sql_column (glob loc : list string) (m : metric) : sexpr :=
    match m with
    | MLeaf l w => sql_leaf l (remove (add (add [] w) loc) glob)
    | MOp op a b w => let loc' := remove (add (add [] w) loc) glob in sql_op op (sql_column glob loc' a) (sql_column glob loc' b)
    | MConstL op r a w => sql_op op (XNum r) (sql_column glob (remove (add (add [] w) loc) glob) a)
    | MConstR op a r w => sql_op op (sql_column glob (remove (add (add [] w) loc) glob) a) (XNum r)
    | MSqrt a w => XSqrt (sql_column glob (remove (add (add [] w) loc) glob) a)
    | MSq a w => XSq (sql_column glob (remove (add (add [] w) loc) glob) a)
    end.
  (** The tree as utils.get_global_filter sees it. *)
  Fixpoint filter_tree (m : metric) : ftree :=
    match m with
    | MLeaf _ w => FNode "SimpleMetric" w []
    | MOp _ a b w => FNode "CompositeMetric" w [filter_tree a; filter_tree b]
    | MConstL _ _ a w | MConstR _ a _ w | MSqrt a w | MSq a w => FNode "CompositeMetric" w [filter_tree a]
    end.
  (** to_sql, metrics.py 692-714 *)
  Definition to_sql (m : metric) (split_by : list string) : query :=
    let glob := get_global_filter (filter_tree m) in Query (sql_column glob [] m) glob split_by.

  (** ** pandas *)
  Fixpoint distinct_from (seen : list R) (l : list num) : list R :=
    match l with
    | [] => []
    | Fin a :: l' => if existsb (Reqb a) seen then distinct_from seen l' else a :: distinct_from (a :: seen) l'
    | _ :: l' => distinct_from seen l'
    end.
  (** metrics.py 1730-1732: grouped[var].nunique() *)
  Definition agg_nunique (v : string) (rows : table) : num := Fin (INR (List.length (distinct_from [] (column v rows)))).
  Definition pandas_leaf (l : leaf) (rows : table) : num :=
    match l with
    | Lf m => leaf_value m rows
    | LMax v => agg_max v rows
    | LMin v => agg_min v rows
    | LDistinct v => agg_nunique v rows
    end.
  Definition num_op (op : op2) : num -> num -> num := match op with OpAdd => xadd | OpSub => xsub | OpMul => xmul | OpDiv => xdiv end.
  (** pandas arithmetic of two results aligns them: union of the index, missing where one side has
      no such key. *)
  Definition align (op : op2) (a b : rframe) : rframe :=
    List.map (fun k => (k, num_op op (lookup k a) (lookup k b))) (sort_uniq (List.map fst a ++ List.map fst b)).
  (** compute_on: every metric filters the data with its own [where_] (metrics.py 480, C13) before
      it, or its children, are computed (metrics.py 1478-1500). *)
  Fixpoint compute (m : metric) (split_by : list string) (df : table) : rframe :=
    match m with
    | MLeaf l w => compute_leaf (pandas_leaf l) split_by (filter (pfilters w) df)
    | MOp op a b w => let df := filter (pfilters w) df in align op (compute a split_by df) (compute b split_by df)
    | MConstL op r a w => List.map (fun kv => (fst kv, num_op op (Fin r) (snd kv))) (compute a split_by (filter (pfilters w) df))
    | MConstR op a r w => List.map (fun kv => (fst kv, num_op op (snd kv) (Fin r))) (compute a split_by (filter (pfilters w) df))
    | MSqrt a w => List.map (fun kv => (fst kv, xsqrt (snd kv))) (compute a split_by (filter (pfilters w) df))
    | MSq a w => List.map (fun kv => (fst kv, xsq (snd kv))) (compute a split_by (filter (pfilters w) df))
    end.
End Run.
