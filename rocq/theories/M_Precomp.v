(** When Jackknife and Bootstrap use their precomputed (fast) path: operations.py 2541-2567 (Jackknife.can_precompute, is_metric_precomputable),
    2753-2756 (Bootstrap.can_precompute), 2322-2326 (Jackknife.compute_slices), 2653-2659 (Bootstrap.compute_slices), 2061-2073
    (MetricWithCI.to_sql); utils.py 514-570 (expansion).

    Filters, names and the columns are left out: they do not matter for the decision.  Comparison of metrics (!=) is equality of trees (C02). *)
From Coq Require Import Reals List Bool String Arith ZArith.
From Verif Require Import M_Num M_Frame M_Leaf.
Import ListNotations.
Open Scope list_scope.

(** Metrics without children.  [KSimple]: those of M_Leaf except its LOther; [KOther]: without equivalent (Nth, Quantile, Correlation with
    method other than pearson); [KUser]: defined by the user, with any get_equivalent. *)
Inductive kind := KSimple (l : leafm) | KDistinct (v : string) | KMax (v : string) | KMin (v : string) | KOther (n : nat) | KUser (n : nat).
(** CompositeMetric and MetricList; Operation with its precomputable_in_jk_bs (operations.py 125; False in 1681 for metrics with confidence
    intervals) *)
Inductive node := NPlain | NOperation (precomputable_in_jk_bs : bool).
Inductive tree := TLeaf (k : kind) | TConst (r : R) | TNode (n : node) (children : list tree).

Section Run.
  (** get_equivalent of the user's metrics *)
  Variable user : nat -> option tree.
  Fixpoint of_etree (e : etree) : tree :=
    match e with
    | ELeaf l => TLeaf (KSimple l)
    | ENum r => TConst r
    | EAdd a b | ESub a b | EMul a b | EDiv a b => TNode NPlain [of_etree a; of_etree b]
    | ESqrt a => TNode NPlain [of_etree a; TConst (/ 2)]
    | ESq a => TNode NPlain [of_etree a; TConst 2]
    end.
  (** get_equivalent, metrics.py 881-892 *)
  Definition get_equivalent (k : kind) : option tree :=
    match k with
    | KSimple l => option_map of_etree (equivalent l)
    | KUser n => user n
    | KDistinct _ | KMax _ | KMin _ | KOther _ => None
    end.
  (** get_equivalent_metric_tree, utils.py 548-561 *)
  Fixpoint expand_tree (t : tree) : tree :=
    match t with
    | TLeaf k => match get_equivalent k with Some e => e | None => t end
    | TConst _ => t
    | TNode n cs => TNode n (List.map expand_tree cs)
    end.
  (** get_fully_expanded_equivalent_metric_tree, utils.py 514-545: the loop ends at the first tree which does not change *)
  Definition fully_expanded (t e : tree) : Prop := exists n, e = Nat.iter n expand_tree t /\ expand_tree e = e.

  (** is_metric_precomputable, operations.py 2546-2567.  [jackknife]: isinstance(metric, Jackknife), where metric is the argument of the
      call, hence false in the recursive call.  The traversal looks at all descendants; a constant is not visited.  [fuel] bounds the
      nesting of recursive calls: the call returns True if it does for some fuel.  The arguments are the children of [metric]. *)
  Fixpoint precomputable (fuel : nat) (jackknife : bool) (t : tree) {struct fuel} : bool :=
    match fuel with
    | O => false
    | S fuel =>
        (fix visit (t : tree) : bool :=
           match t with
           | TConst _ => true
           | TNode n cs =>
               match n with NOperation false => false | _ => true end &&
               match cs with [] => false | _ => forallb visit cs end       (* no children and no equivalent *)
           | TLeaf (KDistinct _) => false
           | TLeaf (KSimple (LSum _)) | TLeaf (KSimple (LCount _)) => true
           | TLeaf (KMax v) | TLeaf (KMin v) => negb jackknife
           | TLeaf k => match get_equivalent k with
                        | None => false
                        | Some (TNode _ cs) => forallb (precomputable fuel false) cs
                        | Some _ => true                                   (* no descendants *)
                        end
           end) t
    end.
  Definition can_precompute (jackknife enable_optimization has_unit : bool) (child : tree) : Prop :=
    (jackknife || has_unit) && enable_optimization = true /\ exists fuel, precomputable fuel jackknife child = true.
  (** compute_slices and to_sql: not can_precompute: the general path; different from its expansion: compute the expansion, which asks again;
      otherwise the fast path.  [e] is the expansion of the child. *)
  Inductive fast_path (jackknife enable_optimization has_unit : bool) : tree -> Prop :=
  | fast_now t : can_precompute jackknife enable_optimization has_unit t -> fully_expanded t t -> fast_path jackknife enable_optimization has_unit t
  | fast_expanded t e : can_precompute jackknife enable_optimization has_unit t -> fully_expanded t e -> t <> e ->
      fast_path jackknife enable_optimization has_unit e -> fast_path jackknife enable_optimization has_unit t.
End Run.
