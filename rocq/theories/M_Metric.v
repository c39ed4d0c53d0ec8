(** Metric trees, their filters and fingerprints (metrics.py, operations.py, diversity.py).
    Python objects become trees; [oid] is the identity of the object ([id(self)]), so the
    same object may occur several times in a tree. *)
From Coq Require Import List String ZArith QArith Bool.
Import ListNotations.
Open Scope string_scope.
Open Scope list_scope.

(** * Data frames: cells, rows, frames.  A row is a function from column names; the index of
    the frame is not modelled (metrics.py 215-217: "shouldn't rely on the index"). *)
Inductive cell := CNull | CStr (s : string) | CNum (z : Z).
Definition row := string -> cell.
Definition frame := list row.

Definition cell_eqb (a b : cell) : bool :=
  match a, b with
  | CNull, CNull => true
  | CStr s, CStr t => String.eqb s t
  | CNum x, CNum y => Z.eqb x y
  | _, _ => false
  end.

(** * Leaf metrics: the constructor arguments that are stored, without name and where.
    metrics.py: Count 1738-1757, Sum 1776-1780, Dot 1801-1814, Mean 1850-1859, Max 1893,
    Min 1915, Nth 1944-1995, Quantile 2096-2128, Variance 2333-2344, StandardDeviation
    2384-2396, CV 2425-2431, Correlation 2464-2483, Cov 2560-2586.  [unbiased] is stored as
    [ddof], [LCustom] is a user subclass of Metric without children (its class and [id]). *)
Inductive leaf :=
| LSum (var : string)
| LCount (var : string) (distinct : bool)
| LMean (var : string) (weight : option string)
| LMax (var : string)
| LMin (var : string)
| LDot (var var2 : string) (normalize : bool)
| LNth (var : string) (n : Z) (sort_by : string) (ascending dropna : bool)
| LQuantile (var : string) (quantile : list Q) (weight : option string) (interpolation : string)
| LVariance (var : string) (ddof : Z) (weight : option string)
| LStdDev (var : string) (ddof : Z) (weight : option string)
| LCV (var : string) (ddof : Z)
| LCorrelation (var var2 : string) (weight : option string) (method : string)
| LCov (var var2 : string) (bias : bool) (ddof : option Z) (weight fweight : option string)
| LCustom (cls : string) (oid : nat).

(** Operators of CompositeMetric: metrics.py 957-1000 (the arithmetic of Metric) and
    [BUser] for a user call of CompositeMetric(op, name_tmpl, ...), [f] identifies the
    function object [op]. *)
Inductive binop := BAdd | BSub | BMul | BNeg | BDiv | BPow | BSqrt | BUser (f : nat) (tmpl : string).

Definition tmpl (b : binop) : string :=
  match b with
  | BAdd => "{} + {}" | BSub => "{} - {}" | BMul => "{} * {}" | BNeg => "-{}"
  | BDiv => "{} / {}" | BPow => "{} ^ {}" | BSqrt => "sqrt({})" | BUser _ t => t
  end.

(** Operations with one child that follow Operation.compute_slices (operations.py 128-136):
    Distribution 199-213, CumulativeDistribution 291-318, PercentChange 577-585,
    AbsoluteChange 628-636, HHI/Entropy/TopK/Nxx (diversity.py 62, 103, 144-153, 231-243).
    Conditions and orders are cells / lists of cells. *)
Inductive opk :=
| ODistribution
| OCumulative (order : option (list cell)) (ascending sort_by_values : bool)
| OPercentChange (base : list cell) (include_base : bool)
| OAbsoluteChange (base : list cell) (include_base : bool)
| OHHI | OEntropy | OTopK (k : Z) | ONxx (share : Q).

Inductive kind :=
| KLeaf (l : leaf)
| KComp (b : binop)                         (* CompositeMetric (and Ratio), metrics.py 1397-1420 *)
| KList (children_return_dataframe : bool)  (* MetricList, metrics.py 1108-1128 *)
| KOp (o : opk) (extra_split_by extra_index : list string)
| KCustom (cls : string).                   (* user Metric with a child, sliced by Metric.compute_slices *)

(** [Const] is a numeric child of a CompositeMetric. [w] is [where_] ([] for None). *)
Inductive metric :=
| Const (z : Z)
| Node (oid : nat) (k : kind) (w : list string) (children : list metric).

(** * Fingerprints.  Values are nested tuples; a fingerprint is a tuple of (name, value)
    pairs sorted by name. *)
Inductive fval :=
| FStr (s : string) | FBool (b : bool) | FNum (z : Z) | FRat (q : Q) | FCell (c : cell)
| FTup (l : list fval)
| FFp (l : list (string * fval)).

(** Python's [str(a) > str(b)], by code points (metrics.py 1833, 2536, 2648). *)
Definition str_gtb (a b : string) : bool :=
  match String.compare a b with Gt => true | _ => false end.

Definition opt {A} (k : string) (f : A -> fval) (o : option A) : list (string * fval) :=
  match o with None => [] | Some x => [(k, f x)] end.

Definition cls (c : string) : string * fval := ("class", FStr c).

(** get_fingerprint of leaves (metrics.py 1020-1063, 1832-1838, 2535-2541, 2647-2652): class
    and the attributes in additional_fingerprint_attrs that are not None. *)
Definition leaf_fp (l : leaf) : list (string * fval) :=
  match l with
  | LSum v => [cls "Sum"; ("var", FStr v)]
  | LCount v d => [cls "Count"; ("distinct", FBool d); ("var", FStr v)]
  | LMean v w => [cls "Mean"; ("var", FStr v)] ++ opt "weight" FStr w
  | LMax v => [cls "Max"; ("var", FStr v)]
  | LMin v => [cls "Min"; ("var", FStr v)]
  | LDot v1 v2 n =>
      let (a, b) := if str_gtb v1 v2 then (v2, v1) else (v1, v2) in
      [cls "Dot"; ("normalize", FBool n); ("var", FStr a); ("var2", FStr b)]
  | LNth v n s asc d =>
      [("ascending", FBool asc); cls "Nth"; ("dropna", FBool d); ("n", FNum n); ("sort_by", FStr s); ("var", FStr v)]
  | LQuantile v q w i =>
      [cls "Quantile"; ("interpolation", FStr i); ("quantile", FTup (map FRat q)); ("var", FStr v)]
        ++ opt "weight" FStr w
  | LVariance v d w => [cls "Variance"; ("ddof", FNum d); ("var", FStr v)] ++ opt "weight" FStr w
  | LStdDev v d w => [cls "StandardDeviation"; ("ddof", FNum d); ("var", FStr v)] ++ opt "weight" FStr w
  | LCV v d => [cls "CV"; ("ddof", FNum d); ("var", FStr v)]
  | LCorrelation v1 v2 w m =>
      let (a, b) := if str_gtb v1 v2 then (v2, v1) else (v1, v2) in
      [cls "Correlation"; ("method", FStr m); ("var", FStr a); ("var2", FStr b)] ++ opt "weight" FStr w
  | LCov v1 v2 b d w f =>
      let (x, y) := if str_gtb v1 v2 then (v2, v1) else (v1, v2) in
      [("bias", FBool b); cls "Cov"] ++ opt "ddof" FNum d ++ opt "fweight" FStr f ++
      [("var", FStr x); ("var2", FStr y)] ++ opt "weight" FStr w
  | LCustom c i => [cls c; ("id", FNum (Z.of_nat i))]
  end.

(** Attributes of operations, in alphabetical order before / after the generic ones. *)
Definition op_cls (o : opk) : string :=
  match o with
  | ODistribution => "Distribution" | OCumulative _ _ _ => "CumulativeDistribution"
  | OPercentChange _ _ => "PercentChange" | OAbsoluteChange _ _ => "AbsoluteChange"
  | OHHI => "HHI" | OEntropy => "Entropy" | OTopK _ => "TopK" | ONxx _ => "Nxx"
  end.
Definition op_attrs1 (o : opk) : list (string * fval) :=   (* names below "children" *)
  match o with
  | OCumulative _ a _ => [("ascending", FBool a)]
  | OPercentChange b _ | OAbsoluteChange b _ => [("baseline_key", FTup (map FCell b))]
  | _ => []
  end.
Definition op_attrs2 (o : opk) : list (string * fval) :=   (* names above "extra_split_by" *)
  match o with
  | OCumulative ord _ s => opt "order" (fun l => FTup (map FCell l)) ord ++ [("sort_by_values", FBool s)]
  | OPercentChange _ i | OAbsoluteChange _ i => [("include_base", FBool i)]
  | OTopK k => [("k", FNum k)]
  | ONxx s => [("share", FRat s)]
  | _ => []
  end.

Definition strs_eqb := list_eq_dec string_dec.

(** metrics.py 1036-1037: sorted(self.where_) when not empty. Sorting by code points. *)
Fixpoint sort_ins (x : string) (l : list string) : list string :=
  match l with
  | [] => [x]
  | y :: r => if str_gtb x y then y :: sort_ins x r else x :: l
  end.
Definition sort (l : list string) : list string := fold_right sort_ins [] l.

Definition where_fp (w : list string) : list (string * fval) :=
  match w with [] => [] | _ => [("where", FTup (map FStr (sort w)))] end.

(** metrics.py 1640-1642: children are Sum(v), Count(v) with the same filter, not distinct.
    Simplification: the code compares the joined filter texts, the model the sorted lists of
    conditions (different lists with the same joined text are not treated as equal here). *)
Definition mean_like (cs : list metric) : option (string * list string) :=
  match cs with
  | [Node _ (KLeaf (LSum v)) w []; Node _ (KLeaf (LCount v' false)) w' []] =>
      if String.eqb v v' && (if strs_eqb (sort w) (sort w') then true else false) then Some (v, w) else None
  | _ => None
  end.

(** get_fingerprint, metrics.py 1020-1063 and 1636-1645 (CompositeMetric), as a tree. *)
Fixpoint fp (m : metric) : fval :=
  match m with
  | Const z => FNum z
  | Node i k w cs =>
      match k with
      | KLeaf l => FFp (leaf_fp l ++ where_fp w)
      | KComp b =>
          match mean_like cs with
          | Some (v, w') => FFp (leaf_fp (LMean v None) ++ where_fp w')
          | None => FFp ([("children", FTup (map fp cs)); cls "CompositeMetric"; ("name_tmpl", FStr (tmpl b))] ++ where_fp w)
          end
      | KList _ => FFp ([("children", FTup (map fp cs)); cls "MetricList"] ++ where_fp w)
      | KOp o ex exi =>
          FFp (op_attrs1 o ++ [("children", FTup (map fp cs)); cls (op_cls o)] ++
               (if strs_eqb exi ex then [] else [("extra_index", FTup (map FStr exi))]) ++
               (match ex with [] => [] | _ => [("extra_split_by", FTup (map FStr ex))] end) ++
               op_attrs2 o ++ where_fp w)
      | KCustom c => FFp ([("children", FTup (map fp cs)); cls c; ("id", FNum (Z.of_nat i))] ++ where_fp w)
      end
  end.

(** utils.py 361-365: the fingerprint inside a CacheKey, without the 'where' of the root. *)
Definition fp0 (m : metric) : fval :=
  match fp m with
  | FFp l => FFp (filter (fun p => negb (String.eqb (fst p) "where")) l)
  | v => v
  end.

Definition oid_of (m : metric) : list nat := match m with Const _ => [] | Node i _ _ _ => [i] end.
(** Metric.traverse, metrics.py 940-950. *)
Fixpoint oids (m : metric) : list nat :=
  match m with Const _ => [] | Node i _ _ cs => i :: flat_map oids cs end.

Definition is_list (m : metric) : bool := match m with Node _ (KList _) _ _ => true | _ => false end.
