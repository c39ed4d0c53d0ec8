(** Metric objects on a heap: what the pipeline operator, add_where, the copies and the rewrites of
    the tree do to the objects a user holds.

    An object is its label (class and parameters, name template, name, filters) and the list of its
    children, which are references to other objects or constants.  Addresses are positions in the
    heap; nothing is ever freed.  The cache, cache_key and the run time flags of an object are not
    modelled here (they are the subject of M_Cache), nor are the attributes of a Model that repeat
    its children (models.py 161-175). *)
From Coq Require Import List String Bool Arith.
Import ListNotations.

(** Metric.__init__, metrics.py 223-253: the attributes of a metric that describe it.  [kind] stands
    for its class and all parameters that no function modelled here reads; [is_op] is is_operation
    (metrics.py 251, operations.py 126), that is whether the object can be called with a child. *)
Record label := { kind : string; is_op : bool; tmpl : option string; nm : string; whr : list string }.

Inductive child := Ref (a : nat) | Const (s : string).
Record obj := { lab : label; kids : list child }.
Definition heap := list obj.

(** Creating an object, metrics.py 223-253. *)
Definition alloc (h : heap) (o : obj) : heap * nat := (h ++ [o], List.length h).

Fixpoint update (h : heap) (a : nat) (o : obj) : heap :=
  match h, a with
  | [], _ => []
  | _ :: r, O => o :: r
  | x :: r, S a => x :: update r a o
  end.

(** obj.children = ks *)
Definition set_kids (h : heap) (a : nat) (ks : list child) : heap :=
  match nth_error h a with Some o => update h a {| lab := lab o; kids := ks |} | None => h end.
(** an assignment to the name or to the filters of an object *)
Definition set_label (h : heap) (a : nat) (f : label -> label) : heap :=
  match nth_error h a with Some o => update h a {| lab := f (lab o); kids := kids o |} | None => h end.

Definition with_name (n : string) (l : label) : label :=
  {| kind := kind l; is_op := is_op l; tmpl := tmpl l; nm := n; whr := whr l |}.
Definition with_where (w : list string) (l : label) : label :=
  {| kind := kind l; is_op := is_op l; tmpl := tmpl l; nm := nm l; whr := w |}.

(** Metric.add_where, metrics.py 273-279.  The order in which tuple(set(...)) lists the filters is
    left to Python; the where property sorts them (metrics.py 256-262), so one order is as good as
    another. *)
Definition added_where (old new : list string) : list string :=
  match old with [] => new | _ => nodup string_dec (old ++ new) end.
Definition add_where (w : list string) (l : label) : label := with_where (added_where (whr l) w) l.

(** A loop over a list that threads a state and fails when one step fails. *)
Fixpoint thread {S A B} (f : S -> A -> option (S * B)) (s : S) (l : list A) : option (S * list B) :=
  match l with
  | [] => Some (s, [])
  | x :: r => match f s x with
              | None => None
              | Some (s1, y) => match thread f s1 r with
                                | None => None
                                | Some (s2, ys) => Some (s2, y :: ys)
                                end
              end
  end.

Fixpoint seen (memo : list (nat * nat)) (a : nat) : option nat :=
  match memo with
  | [] => None
  | (b, b') :: r => if Nat.eqb a b then Some b' else seen r a
  end.

(** Metric.__deepcopy__, metrics.py 1072-1085: the new object is entered in the memo before its
    attributes are copied, so an object met twice is copied once.  [n] bounds the nesting. *)
Fixpoint dcopy (n : nat) (s : heap * list (nat * nat)) (c : child)
    : option ((heap * list (nat * nat)) * child) :=
  match c with
  | Const v => Some (s, Const v)
  | Ref a =>
      match seen (snd s) a with
      | Some a' => Some (s, Ref a')
      | None =>
          match n, nth_error (fst s) a with
          | S n, Some o =>
              let (h1, a') := alloc (fst s) {| lab := lab o; kids := [] |} in
              match thread (dcopy n) (h1, (a, a') :: snd s) (kids o) with
              | Some ((h2, memo), ks) => Some ((set_kids h2 a' ks, memo), Ref a')
              | None => None
              end
          | _, _ => None
          end
      end
  end.

(** copy.deepcopy(metric): a chain of different objects is not longer than the heap. *)
Definition deepcopy (h : heap) (c : child) : option (heap * child) :=
  match dcopy (List.length h) (h, []) c with Some ((h', _), c') => Some (h', c') | None => None end.

(** copy.copy(metric): a new object with the same attributes. *)
Definition copy (h : heap) (a : nat) : option (heap * nat) :=
  match nth_error h a with Some o => Some (alloc h o) | None => None end.

Section Pipeline.
Variable fmt : string -> string -> string.  (* str.format with one argument *)

(** utils.get_name, utils.py 30-31 *)
Definition get_name (h : heap) (c : child) : option string :=
  match c with
  | Const s => Some s
  | Ref a => match nth_error h a with Some o => Some (nm (lab o)) | None => None end
  end.

(** Operation.__call__, operations.py 192-197: None when it raises (no name template, or the object
    is not an operation). *)
Definition call (h : heap) (op : nat) (c : child) : option (heap * child) :=
  match nth_error h op with
  | None => None
  | Some o =>
      if is_op (lab o) then
        match (match kids o with [] => Some (h, Ref op) | _ => deepcopy h (Ref op) end) with
        | Some (h1, Ref a) =>
            match tmpl (lab o), get_name h1 c with
            | Some t, Some n =>
                Some (set_kids (set_label h1 a (with_name (fmt t n))) a [c], Ref a)
            | _, _ => None
            end
        | _ => None
        end
      else None
  end.

(** What a program does with metrics.  Every statement defines one new variable; variables are
    numbered in the order of definition. *)
Inductive arg := Var (x : nat) | Lit (s : string).
Inductive stmt :=
| New (l : label) (args : list arg)   (* a constructor: a leaf, a list, a composite, an operation
                                          with or without its child *)
| Pipe (x op : nat)                   (* x | op, Metric.__or__, metrics.py 954-956 *)
| AddWhere (x : nat) (w : list string).  (* x.add_where(w), which returns x *)

Definition state := (heap * list child)%type.
Definition get (env : list child) (a : arg) : option child :=
  match a with Lit s => Some (Const s) | Var x => nth_error env x end.

Definition step (s : state) (c : stmt) : option state :=
  let (h, env) := s in
  match c with
  | New l args =>
      match thread (fun (_ : unit) a => match get env a with Some v => Some (tt, v) | None => None end)
                   tt args with
      | Some (_, ks) => let (h', a) := alloc h {| lab := l; kids := ks |} in
                        Some (h', env ++ [Ref a])
      | None => None
      end
  | Pipe x op =>
      match nth_error env x, nth_error env op with
      | Some c, Some (Ref a) =>
          match call h a c with Some (h', r) => Some (h', env ++ [r]) | None => None end
      | _, _ => None
      end
  | AddWhere x w =>
      match nth_error env x with
      | Some (Ref a) => Some (set_label h a (add_where w), env ++ [Ref a])
      | _ => None
      end
  end.

Fixpoint run (s : state) (p : list stmt) : option state :=
  match p with
  | [] => Some s
  | c :: r => match step s c with Some s' => run s' r | None => None end
  end.
End Pipeline.

(** ** The rewrites of a metric tree *)

(** copy.copy(c).add_where(where) if is_metric(c) else c, utils.py 266-268 *)
Definition copy_filtered (w : list string) (h : heap) (c : child) : option (heap * child) :=
  match c with
  | Const s => Some (h, Const s)
  | Ref a => match copy h a with
             | Some (h', a') => Some (set_label h' a' (add_where w), Ref a')
             | None => None
             end
  end.

(** utils.push_filters_to_leaf, utils.py 256-271, below the root (is_root=False). *)
Fixpoint push (n : nat) (h : heap) (c : child) : option (heap * child) :=
  match c with
  | Const s => Some (h, Const s)
  | Ref a =>
      match n, nth_error h a with
      | S n, Some o =>
          match kids o with
          | [] => deepcopy h (Ref a)
          | _ =>
              match copy h a with
              | None => None
              | Some (h1, a') =>
                  match (match whr (lab o) with
                         | [] => Some (h1, kids o)
                         | w => thread (copy_filtered w) h1 (kids o)
                         end) with
                  | None => None
                  | Some (h2, ks) =>
                      match thread (push n) h2 ks with
                      | None => None
                      | Some (h3, ks') => Some (set_label (set_kids h3 a' ks') a' (with_where []), Ref a')
                      end
                  end
              end
          end
      | _, _ => None
      end
  end.

(** utils.push_filters_to_leaf(metric), utils.py 230-271; [key] is metric.cache_key.where, [] when
    there is no cache key or no filter in it. *)
Definition push_filters_to_leaf (key : list string) (h : heap) (c : child) : option (heap * child) :=
  match c, key with
  | Const s, _ => Some (h, c)
  | _, [] => push (S (List.length h)) h c
  | _, _ => match deepcopy h c with
            | Some (h1, Ref a) => push (S (List.length h)) (set_label h1 a (add_where key)) (Ref a)
            | _ => None
            end
  end.

(** A metric built from scratch: what Metric.get_equivalent returns (C19 says which one). *)
Inductive tree := TConst (s : string) | Node (l : label) (ts : list tree).
Fixpoint build (h : heap) (t : tree) : heap * child :=
  match t with
  | TConst s => (h, Const s)
  | Node l ts =>
      let (h1, ks) := (fix go (h : heap) (ts : list tree) : heap * list child :=
                         match ts with
                         | [] => (h, [])
                         | t :: r => let (h1, k) := build h t in
                                     let (h2, ks) := go h1 r in (h2, k :: ks)
                         end) h ts in
      let (h2, a) := alloc h1 {| lab := l; kids := ks |} in (h2, Ref a)
  end.

Section Rewrites.
(** Metric.get_equivalent of a leaf with the auxiliary columns added, utils.py 566-572; None when it
    returns nothing. *)
Variable equivalent : label -> option tree.
(** operations.py 3178-3209: the metric on the preaggregated column. *)
Variable preaggregated : label -> label.
(** operations.py 3523-3538: the labels of an inner metric and of a leaf in the LOO query.  Only Sum
    and Count leaves are replaced; [loo_leaf] is None for other metrics. *)
Variable loo_inner : label -> label.
Variable loo_leaf : label -> option label.

(** utils.get_equivalent_metric_tree, utils.py 548-563 *)
Fixpoint equivalent_tree (n : nat) (h : heap) (c : child) : option (heap * child) :=
  match c with
  | Const s => Some (h, Const s)
  | Ref a =>
      match n, nth_error h a with
      | S n, Some o =>
          match kids o with
          | [] => match equivalent (lab o) with
                  | None => Some (h, Ref a)
                  | Some t => Some (build h t)
                  end
          | _ =>
              match deepcopy h (Ref a) with
              | Some (h1, Ref a') =>
                  match nth_error h1 a' with
                  | None => None
                  | Some o' =>
                      match thread (equivalent_tree n) h1 (kids o') with
                      | Some (h2, ks) => Some (set_kids h2 a' ks, Ref a')
                      | None => None
                      end
                  end
              | _ => None
              end
          end
      | _, _ => None
      end
  end.
Definition get_equivalent_metric_tree (h : heap) (c : child) : option (heap * child) :=
  equivalent_tree (S (List.length h)) h c.

(** utils.get_fully_expanded_equivalent_metric_tree, utils.py 514-545.  [same] is the comparison of
    metrics (C73 says which one); [k] bounds the number of rounds, None when they do not suffice. *)
Fixpoint expand (same : heap -> child -> child -> bool) (k : nat) (h : heap) (prev curr : child)
    : option (heap * child) :=
  if same h prev curr then Some (h, curr) else
  match k with
  | O => None
  | S k => match get_equivalent_metric_tree h curr with
           | Some (h', next) => expand same k h' curr next
           | None => None
           end
  end.
Definition get_fully_expanded (same : heap -> child -> child -> bool) (k : nat) (h : heap) (c : child)
    : option (heap * child) :=
  match get_equivalent_metric_tree h c with
  | Some (h', curr) => expand same k h' c curr
  | None => None
  end.

(** operations.get_preaggregated_metric_tree, operations.py 3166-3175.  has_been_preaggregated is a
    run time flag and left out. *)
Fixpoint preaggregated_tree (n : nat) (h : heap) (c : child) : option (heap * child) :=
  match c with
  | Const s => Some (h, Const s)
  | Ref a =>
      match n, nth_error h a with
      | S n, Some o =>
          match kids o with
          | [] => let (h', a') := alloc h {| lab := preaggregated (lab o); kids := [] |} in
                  Some (h', Ref a')
          | ks =>
              match copy h a with
              | None => None
              | Some (h1, a') =>
                  match thread (preaggregated_tree n) h1 ks with
                  | Some (h2, ks') => Some (set_kids h2 a' ks', Ref a')
                  | None => None
                  end
              end
          end
      | _, _ => None
      end
  end.
Definition get_preaggregated_metric_tree (h : heap) (c : child) : option (heap * child) :=
  preaggregated_tree (S (List.length h)) h c.

(** operations.modify_descendants_for_jackknife_fast, operations.py 3471-3547. *)
Fixpoint modify_descendants (n : nat) (h : heap) (c : child) : option (heap * child) :=
  match c with
  | Const s => Some (h, Const s)
  | Ref a =>
      match n, deepcopy h (Ref a) with
      | S n, Some (h1, Ref a') =>
          let h2 := set_label h1 a' (with_where []) in
          match nth_error h a, nth_error h2 a' with
          | Some o, Some o' =>
              match loo_leaf (lab o) with
              | Some l => let (h3, b) := alloc h2 {| lab := l; kids := [] |} in Some (h3, Ref b)
              | None =>
                  let h3 := set_label h2 a' loo_inner in
                  match thread (modify_descendants n) h3 (kids o') with
                  | Some (h4, ks) => Some (set_kids h4 a' ks, Ref a')
                  | None => None
                  end
              end
          | _, _ => None
          end
      | _, _ => None
      end
  end.
Definition modify_for_jackknife_fast (h : heap) (c : child) : option (heap * child) :=
  modify_descendants (S (List.length h)) h c.
End Rewrites.
