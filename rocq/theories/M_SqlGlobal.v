(** Where filters of a metric tree go in SQL: the WHERE clause (global) or IF(...) around the
    argument of an aggregate (local). *)
From Coq Require Import List String Bool.
Import ListNotations.
Open Scope string_scope.
Open Scope list_scope.

(** A metric as far as filters are concerned: class name, [where_] and children that are
    metrics (constants have no filters). *)
Inductive ftree := FNode (class : string) (where_ : list string) (children : list ftree).

Definition mem (x : string) (l : list string) : bool := existsb (String.eqb x) l.

(** SqlComponents.add, sql.py 148-155: empty strings and known conditions are skipped. *)
Definition add1 (fs : list string) (c : string) : list string :=
  if String.eqb c "" || mem c fs then fs else fs ++ [c].
Definition add (fs cs : list string) : list string := fold_left add1 cs fs.
(** Filters.remove, sql.py 195-199. *)
Definition remove (fs gs : list string) : list string := filter (fun c => negb (mem c gs)) fs.

(** set.intersection of the children_filters, utils.py 224-226; the order of a set is arbitrary, here
    that of the first. *)
Fixpoint inter (l : list (list string)) : list string :=
  match l with
  | [] => []
  | [x] => x
  | x :: r => filter (fun c => mem c (inter r)) x
  end.

(** utils.get_global_filter, utils.py 212-227. *)
Fixpoint get_global_filter (t : ftree) : list string :=
  match t with
  | FNode n w cs =>
      let own := add [] w in
      if mem n ["Jackknife"; "Bootstrap"] then own
      else match cs with [] => own | _ => add own (inter (map get_global_filter cs)) end
  end.

(** get_sql_and_with_clause down the tree (metrics.py 1294-1302, 1539-1560, 1692-1699;
    operations.py 251-256, 535-540, 860-866): what is passed to each leaf, left to right. *)
Fixpoint local_filters (glob loc : list string) (t : ftree) : list (list string) :=
  match t with
  | FNode n w cs =>
      let loc' := remove (add (add [] w) loc) glob in
      match cs with [] => [loc'] | _ => flat_map (local_filters glob loc') cs end
  end.

(** to_sql, metrics.py 692-708: for each leaf the WHERE clause and the condition of its IF. *)
Definition sql_filters (t : ftree) : list (list string * list string) :=
  let g := get_global_filter t in map (fun l => (g, l)) (local_filters g [] t).
