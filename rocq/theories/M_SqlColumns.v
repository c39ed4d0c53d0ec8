(** Model of sql.py [Column] naming, [Columns.add], [Sql.merge], [Datasources.add/merge].

    [Column] objects are mutable and shared between lists, so they live in a heap indexed
    by [nat]; a [Columns] is the list of its members' locations. *)
From Coq Require Import List String Ascii Bool Arith NArith Lia.
From Verif Require Import M_SqlText.
Import ListNotations.
Local Open Scope string_scope.
Local Open Scope list_scope.

Inductive exn := IndexError | RecursionError | ValueError.
Inductive res (A : Type) := Ok (a : A) | Err (e : exn).
Arguments Ok {A}. Arguments Err {A}.
Definition bind {A B} (r : res A) (f : A -> res B) : res B :=
  match r with Ok a => f a | Err e => Err e end.
Fixpoint mapM {A B} (f : A -> res B) (l : list A) : res (list B) :=
  match l with
  | [] => Ok []
  | a :: t => bind (f a) (fun b => bind (mapM f t) (fun bs => Ok (b :: bs)))
  end.

(** sql.py:241-264 [Column.__init__]: what naming depends on.  [c_expr] is the (immutable)
    text of the [expression] property (sql.py:284-303); how it is built from [fn], [filters]
    and the OVER clause is not modelled here. *)
Record column := mkCol {
  c_expr : string;
  c_alias_raw : option string;
  c_auto_alias : bool;
  c_suffix : N
}.

Definition heap := nat -> column.
Definition upd (h : heap) (l : nat) (c : column) : heap :=
  fun l' => if Nat.eqb l' l then c else h l'.

Definition strip_backtick (s : string) : string := of_chars (strip "`" (to_chars s)).

(** [Column(expr, alias=alias)] / [auto_alias], sql.py:254-257: the default alias is
    [fn.lower().format( *column)], passed here as [default]. *)
Definition new_column (expr : string) (alias : option string) (auto : bool) (default : string)
  : column :=
  match alias with
  | Some a => if String.eqb a ""
              then mkCol expr (if auto then Some default else None) auto 0
              else mkCol expr (Some (strip_backtick a)) auto 0
  | None => mkCol expr (if auto then Some default else None) auto 0
  end.

Definition lift_escape (s : string) : res (option string) :=
  match escape_alias s with Some a => Ok (Some a) | None => Err IndexError end.

(** sql.py:265-270 [Column.alias].  ['%s_%s' % (None, n)] is "None_n". *)
Definition col_alias (c : column) : res (option string) :=
  match c_suffix c with
  | N0 => match c_alias_raw c with None => Ok None | Some a => lift_escape a end
  | n => let a := match c_alias_raw c with None => "None" | Some a => a end in
         lift_escape (of_chars (to_chars a ++ underscore :: str_of_N n))
  end.

(** sql.py:272-278 [alias.setter], [set_alias]. *)
Definition set_alias (c : column) (a : string) : column :=
  mkCol (c_expr c) (Some (strip_backtick a)) (c_auto_alias c) (c_suffix c).

(** sql.py:280-282 [Column.add_suffix]. *)
Definition col_add_suffix (c : column) : column :=
  mkCol (c_expr c) (c_alias_raw c) (c_auto_alias c) (c_suffix c + 1).

(** Python truthiness of [alias_raw]. *)
Definition truthy (o : option string) : bool :=
  match o with Some s => negb (String.eqb s "") | None => false end.

Definition opt_eqb (a b : option string) : bool :=
  match a, b with
  | Some x, Some y => String.eqb x y | None, None => true | _, _ => false
  end.

(** sql.py:420-424 [Columns.get_alias]: alias_raw of the first column with that expression. *)
Definition get_alias (h : heap) (L : list nat) (e : string) : option string :=
  match find (fun l => String.eqb (c_expr (h l)) e) L with
  | Some l => c_alias_raw (h l)
  | None => None
  end.

(** sql.py:411-413 [Columns.aliases]. *)
Definition aliases (h : heap) (L : list nat) : res (list (option string)) :=
  mapM (fun l => col_alias (h l)) L.

(** sql.py:432-468 [Columns.add] for one Column.  [fuel] is Python's recursion limit; running
    out of it is a RecursionError. *)
Fixpoint columns_add (fuel : nat) (h : heap) (L : list nat) (l : nat) : res (heap * list nat) :=
  match fuel with
  | O => Err RecursionError
  | S fuel' =>
      let c := h l in
      if String.eqb (c_expr c) "" then Ok (h, L) else
      bind (col_alias c) (fun a =>
      let found := get_alias h L (c_expr c) in
      if truthy found then
        match found with
        | Some f => Ok (upd h l (set_alias c f), L)
        | None => Ok (h, L)
        end
      else
        bind (aliases h L) (fun als =>
        if existsb (opt_eqb a) als
        then columns_add fuel' (upd h l (col_add_suffix c)) L l
        else Ok (h, L ++ [l])))
  end.

(** sql.py:449-452: adding an iterable adds its members in turn. *)
Fixpoint columns_add_all (fuel : nat) (h : heap) (L : list nat) (ls : list nat)
  : res (heap * list nat) :=
  match ls with
  | [] => Ok (h, L)
  | l :: t => bind (columns_add fuel h L l) (fun hL => columns_add_all fuel (fst hL) (snd hL) t)
  end.

(** sql.py:305-311 [Column.__str__]. *)
Definition col_str (c : column) : res string :=
  if String.eqb (c_expr c) "" then Ok "" else
  if negb (truthy (c_alias_raw c)) && negb (c_auto_alias c) then Ok (c_expr c) else
  bind (col_alias c) (fun a =>
  match a with
  | Some a => if String.eqb (c_expr c) a then Ok (c_expr c)
              else Ok (append (c_expr c) (append " AS " a))
  | None => Ok (append (c_expr c) " AS None")
  end).

Fixpoint join (sep : string) (l : list string) : string :=
  match l with [] => "" | [a] => a | a :: t => append a (append sep (join sep t)) end.

(** sql.py:697-733 [Sql].  The clauses other than SELECT are kept as their rendered text
    (all comparisons in the code are by text, sql.py:109-110).  Simplification:
    [q_groupby_cols] is the rendered SELECT part of the GROUP BY columns and they are assumed
    not to collide with the other columns, so that rendering (sql.py:735-737) renames nothing. *)
Record sql := mkSql {
  q_cols : list nat;
  q_distinct : bool;
  q_from : string;
  q_where : string;
  q_groupby_cols : string;
  q_with : string;
  q_orderby : string
}.

(** sql.py:769-789 [Sql.__str__] (clause keywords abbreviated: only its injectivity in the
    clause list is ever relevant, and no theorem relies on that either). *)
Definition sql_str (h : heap) (q : sql) : res string :=
  bind (mapM (fun l => col_str (h l)) (q_cols q)) (fun cs =>
  Ok (join (String (ascii_of_nat 10) "")
        [ q_with q; if q_distinct q then "SELECT DISTINCT" else "SELECT";
          q_groupby_cols q; join ", " cs;
          append "FROM " (q_from q); append "WHERE " (q_where q); q_orderby q ])).

(** sql.py:30-55 [is_compatible]. *)
Definition is_compatible (a b : sql) : bool :=
  String.eqb (q_from a) (q_from b) && String.eqb (q_where a) (q_where b) &&
  String.eqb (q_groupby_cols a) (q_groupby_cols b) && String.eqb (q_with a) (q_with b) &&
  negb (q_distinct a) && negb (q_distinct b).

Definition set_cols (q : sql) (cs : list nat) : sql :=
  mkSql cs (q_distinct q) (q_from q) (q_where q) (q_groupby_cols q) (q_with q) (q_orderby q).

(** sql.py:748-767 [Sql.merge]: new heap, new self, and whether merged. *)
Definition sql_merge (fuel : nat) (h : heap) (self other : sql) : res (heap * sql * bool) :=
  bind (sql_str h self) (fun s1 => bind (sql_str h other) (fun s2 =>
  if String.eqb s1 s2 then Ok (h, self, true) else
  if negb (is_compatible self other) then Ok (h, self, false) else
  bind (columns_add_all fuel h (q_cols self) (q_cols other)) (fun hL =>
  Ok (fst hL, set_cols self (snd hL), true)))).

(** A WITH table is a [Sql] or plain text. *)
Inductive table := TSql (q : sql) | TText (s : string).
Definition table_str (h : heap) (t : table) : res string :=
  match t with TSql q => sql_str h q | TText s => Ok s end.

(** [Datasources.children]: an insertion ordered dict alias -> table. *)
Definition dsources := list (string * table).
Definition dkeys (d : dsources) : list string := map fst d.
Fixpoint dlookup (d : dsources) (a : string) : option table :=
  match d with
  | [] => None
  | (k, t) :: r => if String.eqb k a then Some t else dlookup r a
  end.
Fixpoint dset (d : dsources) (a : string) (t : table) : dsources :=
  match d with
  | [] => [(a, t)]
  | (k, u) :: r => if String.eqb k a then (k, t) :: r else (k, u) :: dset r a t
  end.

(** sql.py:626-634 the loop over other tables in [Datasources.merge]. *)
Fixpoint merge_scan (fuel : nat) (h : heap) (pre d : dsources) (alias : string) (q : sql)
  : res (heap * dsources * option string) :=
  match d with
  | [] => Ok (h, pre, None)
  | (a, t) :: r =>
      if String.eqb a alias then merge_scan fuel h (pre ++ [(a, t)]) r alias q else
      match t with
      | TText _ => merge_scan fuel h (pre ++ [(a, t)]) r alias q
      | TSql t' =>
          bind (sql_merge fuel h t' q) (fun x =>
          match x with
          | (h', t'', true) => Ok (h', pre ++ (a, TSql t'') :: r, Some a)
          | (h', t'', false) => merge_scan fuel h' (pre ++ [(a, TSql t'')]) r alias q
          end)
      end
  end.

(** sql.py:631-632 [while new_child.alias in self.children: ... add_suffix]. *)
Fixpoint fresh_alias (fuel : nat) (ks : list string) (a : string) : option string :=
  if existsb (String.eqb a) ks then
    match fuel with O => None | S f => fresh_alias f ks (add_suffix a) end
  else Some a.

(** sql.py:580-634 [Datasources.merge] of one Sql datasource. *)
Definition ds_merge (fuel : nat) (h : heap) (d : dsources) (alias : string) (q : sql)
  : res (heap * dsources * string) :=
  let continue (h : heap) (d : dsources) :=
    bind (merge_scan fuel h [] d alias q) (fun x =>
    match x with
    | (h', d', Some a) => Ok (h', d', a)
    | (h', d', None) =>
        match fresh_alias fuel (dkeys d') alias with
        | Some a => Ok (h', dset d' a (TSql q), a)
        | None => Err RecursionError
        end
    end) in
  match dlookup d alias with
  | Some (TSql t) =>
      bind (sql_merge fuel h t q) (fun x =>
      match x with
      | (h', t', true) => Ok (h', dset d alias (TSql t'), alias)
      | (h', t', false) => continue h' (dset d alias (TSql t'))
      end)
  | _ => continue h d
  end.

Fixpoint find_text (h : heap) (d : dsources) (s : string) : res (option string) :=
  match d with
  | [] => Ok None
  | (k, t) :: r => bind (table_str h t) (fun s' =>
                   if String.eqb s' s then Ok (Some k) else find_text h r s)
  end.

(** sql.py:636-677 [Datasources.add] of one Datasource. *)
Fixpoint ds_add (fuel : nat) (h : heap) (d : dsources) (alias : string) (t : table)
  : res (dsources * string) :=
  match fuel with
  | O => Err RecursionError
  | S fuel' =>
      bind (table_str h t) (fun s =>
      match dlookup d alias with
      | None => bind (find_text h d s) (fun f =>
                match f with
                | None => Ok (dset d alias t, alias)
                | Some k => Ok (d, k)
                end)
      | Some u => bind (table_str h u) (fun s' =>
                  if String.eqb s s' then Ok (d, alias)
                  else ds_add fuel' h d (add_suffix alias) t)
      end)
  end.
