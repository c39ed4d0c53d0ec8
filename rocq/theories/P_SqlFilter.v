(** Property C13: a WHERE clause means the conjunction of the filters. *)
From Coq Require Import List String Ascii Bool Arith NArith Permutation.
From Verif Require Import M_SqlText M_SqlFilter S_SqlFilter L_SqlFilter.
Import ListNotations.
Local Open Scope list_scope.

(** The text generated for a bunch of SQL conditions reads as their conjunction, provided
    that every OR in a condition is surrounded by plain spaces ([or_visible]). *)
Theorem C13_sql_where_partial : forall conds (rd : chars -> bexp),
  (exists c, In c conds /\ c <> []) ->
  (forall c, In c conds -> c <> [] ->
     reads_as (replace_eqeq c) (rd c) /\ or_visible (replace_eqeq c)) ->
  exists e, reads_as (filters_str (filters_of conds)) e /\
    forall v, eval v e =
      all3 (map (fun c => eval v (rd c)) (filter (fun c => negb (chars_eqb c [])) conds)).
Proof. exact filters_of_conj. Qed.
Print Assumptions C13_sql_where_partial.

(** The string passed to df.query reads as the conjunction, without any proviso. *)
Theorem C13_pandas_query : forall ws es,
  ws <> [] -> Forall2 reads_as ws es ->
  exists e, reads_as (metric_where ws) e /\ forall v, eval v e = all3 (map (eval v) es).
Proof. exact metric_where_conj. Qed.
Print Assumptions C13_pandas_query.

(** There is only one way to read a text, so the above determines its meaning. *)
Theorem C13_reading_is_unique : forall s e1 e2, reads_as s e1 -> reads_as s e2 -> e1 = e2.
Proof. exact reads_as_unique. Qed.
Print Assumptions C13_reading_is_unique.

(** The texts do not depend on the order in which the filters were given. *)
Theorem C13_order_irrelevant : forall ws ws', Permutation ws ws' ->
  metric_where ws = metric_where ws' /\ filters_str ws = filters_str ws'.
Proof. exact (fun ws ws' H => conj (metric_where_order ws ws' H) (filters_str_order ws ws' H)). Qed.
Print Assumptions C13_order_irrelevant.

(** Missing: an OR next to a newline is not noticed, no parentheses are added and the
    clause means something else.  Conditions "a", and "b OR<newline>c" give
    "a AND b OR<newline>c", which holds when only c holds. *)
Theorem C13_sql_where_refuted : exists conds (rd : chars -> bexp) e v,
  (forall c, In c conds -> c <> [] /\ reads_as (replace_eqeq c) (rd c)) /\
  reads_as (filters_str (filters_of conds)) e /\
  eval v e = Some true /\ all3 (map (fun c => eval v (rd c)) conds) = Some false.
Proof. exact C13_refutation. Qed.
Print Assumptions C13_sql_where_refuted.

(** '==' is also replaced inside string literals. *)
Theorem C13_literal_changed_refuted : exists cond w,
  lex [] None cond = Some [TWord (to_chars "s"); TWord (to_chars "=="); TWord w] /\
  lex [] None (filter_str cond) = Some [TWord (to_chars "s"); TWord (to_chars "="); TWord (to_chars "'a=b'")] /\
  w <> to_chars "'a=b'".
Proof. exact C13_literal. Qed.
Print Assumptions C13_literal_changed_refuted.

Example C13_example :
  filters_str (filters_of [to_chars "x > 5 or y == 3"; to_chars "b IN ('p OR q', 'r')"; to_chars "x > 5 or y == 3"])
  = to_chars "(b IN ('p OR q', 'r')) AND (x > 5 or y = 3)" /\
  reads_as (to_chars "(b IN ('p OR q', 'r')) AND (x > 5 or y = 3)")
    (BAnd (BAtom (TWord (to_chars "b") :: TWord (to_chars "IN") :: TLP ::
                  TWord (to_chars "'p OR q',") :: TWord (to_chars "'r'") :: TRP :: nil))
          (BOr (BAtom (map (fun s => TWord (to_chars s)) ["x"; ">"; "5"]%string))
               (BAtom (map (fun s => TWord (to_chars s)) ["y"; "="; "3"]%string)))).
Proof.
  split; [vm_compute; reflexivity|].
  eexists _, 10. split; vm_compute; reflexivity.
Qed.
