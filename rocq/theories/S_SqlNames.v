(** Independent specification for SELECT lists and WITH tables (C10, C11, C12).  It speaks
    only of the observable expression and alias of columns. *)
From Coq Require Import List String Ascii Bool Arith NArith.
From Verif Require Import M_SqlText M_SqlColumns.
Import ListNotations.
Local Open Scope string_scope.

(** *** Characters *)
Definition occurs (c : ascii) (s : string) : Prop := In c (list_ascii_of_string s).
Definition specials : string := " `~!@#$%^&*()-=+[]{}\|;:'"",.<>/?".
(** Characters that leave nothing but underscores. *)
Definition blanks : string := "_ `~#&()[]{}\|;:'"",?".
Definition digits : string := "0123456789".


(** Column [l] is rendered under the alias [a]. *)
Definition named (h : heap) (l : nat) (a : string) : Prop := col_alias (h l) = Ok (Some a).

(** A column with an expression and a usable alias: non-empty, without surrounding
    backticks (the constructor strips them) and with something left after sanitizing. *)
Definition wf_column (c : column) : Prop :=
  c_expr c <> "" /\
  exists a, c_alias_raw c = Some a /\ a <> "" /\ strip_backtick a = a /\ escape_alias a <> None.

(** A SELECT list with distinct expressions and distinct aliases. *)
Definition distinct_columns (h : heap) (L : list nat) : Prop :=
  NoDup (map (fun l => c_expr (h l)) L) /\
  (exists als, Forall2 (named h) L als /\ NoDup als) /\
  Forall (fun l => wf_column (h l)) L.

(** Expression [e] is selected by [L] under alias [a]. *)
Definition selects (h : heap) (L : list nat) (e a : string) : Prop :=
  exists l, In l L /\ c_expr (h l) = e /\ named h l a.

(** *** WITH tables *)
Definition cols_of (t : table) : list nat := match t with TSql q => q_cols q | TText _ => [] end.

(** A WITH table may only gain columns at the end. *)
Definition grows (t t' : table) : Prop :=
  t' = t \/ exists q more, t = TSql q /\ t' = TSql (set_cols q (q_cols q ++ more)).

(** [d'] keeps every table of [d], under its name and in order, each at most grown. *)
Definition keeps_tables (d d' : dsources) : Prop :=
  exists d1 extra, d' = (d1 ++ extra)%list /\
    Forall2 (fun kt kt' => fst kt' = fst kt /\ grows (snd kt) (snd kt')) d d1.

(** Columns already selected by the tables of [d] keep expression and alias. *)
Definition keeps_columns (h : heap) (d : dsources) (h' : heap) : Prop :=
  forall k t l, In (k, t) d -> In l (cols_of t) ->
    c_expr (h' l) = c_expr (h l) /\ col_alias (h' l) = col_alias (h l).

(** Table [t] can be used in place of query [q]: it is the same text, or it reads the same
    rows in the same groups and selects every expression [q] selects. *)
Definition provides (h : heap) (t : table) (q : sql) : Prop :=
  (exists s, table_str h t = Ok s /\ sql_str h q = Ok s) \/
  (exists t', t = TSql t' /\
     q_from t' = q_from q /\ q_where t' = q_where q /\
     q_groupby_cols t' = q_groupby_cols q /\ q_with t' = q_with q /\
     q_distinct t' = false /\ q_distinct q = false /\
     forall l, In l (q_cols q) -> exists l', In l' (q_cols t') /\ c_expr (h l') = c_expr (h l)).

Definition good_tables (h : heap) (d : dsources) : Prop :=
  NoDup (dkeys d) /\
  forall k q, In (k, TSql q) d -> distinct_columns h (q_cols q).
