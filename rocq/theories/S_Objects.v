(** What a user means by a metric: a value.  A metric is the tree of its labels, an operation without
    a child is a template, and using a value never changes it. *)
From Coq Require Import List String Bool Arith.
Import ListNotations.
From Verif Require Import M_Objects.

(** The tree of labels one sees when looking at a reference. *)
Inductive denotes (h : heap) : child -> tree -> Prop :=
| denotes_const s : denotes h (Const s) (TConst s)
| denotes_node a o ts : nth_error h a = Some o -> Forall2 (denotes h) (kids o) ts ->
    denotes h (Ref a) (Node (lab o) ts).

(** The objects a metric is made of. *)
Inductive made_of (h : heap) : child -> nat -> Prop :=
| made_here a : made_of h (Ref a) a
| made_below a o k b : nth_error h a = Some o -> In k (kids o) -> made_of h k b -> made_of h (Ref a) b.

(** Every object of [h] is in [h'], unchanged. *)
Definition kept (h h' : heap) : Prop := forall a o, nth_error h a = Some o -> nth_error h' a = Some o.

(** No object of the metric [c] in [h'] existed in [h]. *)
Definition all_new (h h' : heap) (c : child) : Prop := forall b, made_of h' c b -> nth_error h b = None.

(** ** Programs over values *)
Inductive value := Metric (t : tree) | Template (l : label).

Section Values.
Variable fmt : string -> string -> string.

Definition name_of (t : tree) : string := match t with TConst s => s | Node l _ => nm l end.
Definition named (l : label) (t : tree) : option label :=
  match tmpl l with Some s => Some (with_name (fmt s (name_of t)) l) | None => None end.

Definition arg_value (env : list value) (a : arg) : option tree :=
  match a with
  | Lit s => Some (TConst s)
  | Var x => match nth_error env x with Some (Metric t) => Some t | _ => None end
  end.
Fixpoint arg_values (env : list value) (l : list arg) : option (list tree) :=
  match l with
  | [] => Some []
  | a :: r => match arg_value env a, arg_values env r with
              | Some t, Some ts => Some (t :: ts)
              | _, _ => None
              end
  end.

(** The value of the variable a statement defines; None for a statement that has no meaning: a
    template used as a metric, a metric that is not an operation used as one, no name template. *)
Definition value_of (env : list value) (c : stmt) : option value :=
  match c with
  | New l args =>
      match args with
      | [] => Some (if is_op l then Template l else Metric (Node l []))
      | _ => match arg_values env args with Some ts => Some (Metric (Node l ts)) | None => None end
      end
  | Pipe x op =>
      match nth_error env x, nth_error env op with
      | Some (Metric t), Some (Template l) =>
          match named l t with Some l' => Some (Metric (Node l' [t])) | None => None end
      | Some (Metric t), Some (Metric (Node l _)) =>
          if is_op l then match named l t with Some l' => Some (Metric (Node l' [t])) | None => None end
          else None
      | _, _ => None
      end
  | AddWhere _ _ => None
  end.
Fixpoint values (env : list value) (p : list stmt) : option (list value) :=
  match p with
  | [] => Some env
  | c :: r => match value_of env c with Some v => values (env ++ [v]) r | None => None end
  end.
End Values.

(** ** Rewriting trees *)

(** [t'] is [t] with all filters in the leaves: a leaf has its own filters and those of all metrics
    above it, other metrics have none. *)
Inductive pushed (above : list string) : tree -> tree -> Prop :=
| pushed_const s : pushed above (TConst s) (TConst s)
| pushed_leaf l w : (forall f, In f w <-> In f (above ++ whr l)) ->
    pushed above (Node l []) (Node (with_where w l) [])
| pushed_inner l ts ts' : ts <> [] -> Forall2 (pushed (above ++ whr l)) ts ts' ->
    pushed above (Node l ts) (Node (with_where [] l) ts').

(** [t] with [leaf] applied to its leaves and [inner] to the labels of the other metrics. *)
Fixpoint rewritten (leaf : label -> tree) (inner : label -> label) (t : tree) : tree :=
  match t with
  | TConst s => TConst s
  | Node l [] => leaf l
  | Node l ts => Node (inner l) (map (rewritten leaf inner) ts)
  end.
