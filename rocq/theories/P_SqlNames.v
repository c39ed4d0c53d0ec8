(** Properties C09-C12: names in generated SQL. *)
From Coq Require Import List String Ascii Bool Arith NArith.
From Verif Require Import M_SqlText L_SqlText M_SqlColumns S_SqlNames L_SqlColumns L_SqlNamesP.
Import ListNotations.
Local Open Scope string_scope.
Local Open Scope list_scope.

(** ** C09 *)

(** A returned alias contains no special character. *)
Theorem C09_no_special_character : forall s a c,
  escape_alias s = Some a -> occurs c specials -> ~ occurs c a.
Proof. exact l_C09_no_special_character. Qed.
Print Assumptions C09_no_special_character.

(** An alias without special characters is unchanged. *)
Theorem C09_clean_unchanged : forall s,
  (forall c, occurs c s -> ~ occurs c specials) -> escape_alias s = Some s.
Proof. exact l_C09_clean_unchanged. Qed.
Print Assumptions C09_clean_unchanged.

Theorem C09_idempotent : forall s a, escape_alias s = Some a -> escape_alias a = Some a.
Proof. exact l_C09_idempotent. Qed.
Print Assumptions C09_idempotent.

(** Once something was replaced, the alias does not start with a digit. *)
Theorem C09_no_leading_digit : forall s c0 c a,
  occurs c0 s -> occurs c0 specials -> escape_alias s = Some (String c a) -> ~ occurs c digits.
Proof. exact l_C09_no_leading_digit. Qed.
Print Assumptions C09_no_leading_digit.

(** It raises exactly when some character is special and nothing but underscores is left. *)
Theorem C09_raises_iff : forall s,
  escape_alias s = None <->
  (exists c, occurs c s /\ occurs c specials) /\ (forall c, occurs c s -> occurs c blanks).
Proof. exact l_C09_raises_iff. Qed.
Print Assumptions C09_raises_iff.

(** So sanitizing is not total: the code raises IndexError on this alias. *)
Theorem C09_total_refuted : exists s, s <> "" /\ escape_alias s = None.
Proof. exact l_C09_total_refuted. Qed.
Print Assumptions C09_total_refuted.

Example C09_example : escape_alias "2 * sum(x)" = Some "col_2_times_sum_x".
Proof. vm_compute. reflexivity. Qed.

(** ** C10 *)

(** One [add]: terminates, keeps the list duplicate free, appends the column iff its
    expression is new, leaves every other column object untouched and every selected column
    under its old alias. *)
Theorem C10_add : forall fuel h L l,
  distinct_columns h L -> wf_column (h l) -> List.length L + 2 <= fuel ->
  exists h' L', columns_add fuel h L l = Ok (h', L') /\
    distinct_columns h' L' /\
    (forall l', l' <> l -> h' l' = h l') /\ c_expr (h' l) = c_expr (h l) /\ wf_column (h' l) /\
    (In (c_expr (h l)) (map (fun l => c_expr (h l)) L) -> L' = L) /\
    (~ In (c_expr (h l)) (map (fun l => c_expr (h l)) L) -> L' = L ++ [l]) /\
    (forall l', In l' L -> col_alias (h' l') = col_alias (h l')).
Proof. exact columns_add_ok. Qed.
Print Assumptions C10_add.

(** Any sequence of adds, starting from any duplicate free list (in particular the empty one). *)
Theorem C10_add_all : forall fuel ls h L,
  distinct_columns h L -> Forall (fun l => wf_column (h l)) ls ->
  List.length L + List.length ls + 2 <= fuel ->
  exists h' L', columns_add_all fuel h L ls = Ok (h', L') /\
    distinct_columns h' L' /\ Forall (fun l => wf_column (h' l)) ls /\
    (forall l, ~ In l ls -> h' l = h l) /\ (forall l, c_expr (h' l) = c_expr (h l)) /\
    (exists M, L' = L ++ M /\ incl M ls) /\
    (forall l, In l L -> col_alias (h' l) = col_alias (h l)) /\
    (forall l, In l ls -> exists l', In l' L' /\ c_expr (h l') = c_expr (h l)).
Proof. exact columns_add_all_ok. Qed.
Print Assumptions C10_add_all.

Lemma C10_empty_list_is_distinct : forall h, distinct_columns h [].
Proof. intros h. split; [constructor|]. split; [exists []; split; constructor|constructor]. Qed.


Example C10_example :
  let h := ex_heap [ex_col "SUM(x)" "a b"; ex_col "SUM(y)" "a`b"; ex_col "SUM(x)" "c"] in
  Forall (fun l => wf_column (h l)) [0; 1; 2] /\
  match columns_add_all 10 h [] [0; 1; 2] with
  | Ok (h', L') => map (fun l => col_alias (h' l)) L' = [Ok (Some "a_b"); Ok (Some "a_b_1")]
  | Err _ => False
  end.
Proof.
  split; [|vm_compute; reflexivity].
  repeat constructor; try discriminate; eexists; (split; [vm_compute; reflexivity|]);
    (split; [discriminate|]); split; vm_compute; congruence.
Qed.

(** Without an alias ([auto_alias=False]) the same expression is selected twice, the second
    time under the name "None_1". *)
Theorem C10_without_alias_refuted : exists h L' h',
  columns_add_all 10 h [] [0; 1] = Ok (h', L') /\
  map (fun l => c_expr (h' l)) L' = ["x"; "x"] /\
  map (fun l => col_alias (h' l)) L' = [Ok None; Ok (Some "None_1")].
Proof. exact l_C10_without_alias_refuted. Qed.
Print Assumptions C10_without_alias_refuted.

(** ** C11 *)

(** If the column and its existing twin carry the same suffix (e.g. none), the alias the
    added object ends up with names the column with the same expression. *)
Theorem C11_alias_resolves_partial : forall fuel h L l h' L',
  distinct_columns h L -> wf_column (h l) -> List.length L + 2 <= fuel ->
  (forall l0, In l0 L -> c_expr (h l0) = c_expr (h l) -> c_suffix (h l0) = c_suffix (h l)) ->
  columns_add fuel h L l = Ok (h', L') ->
  exists a, named h' l a /\ selects h' L' (c_expr (h l)) a.
Proof. exact columns_add_alias_right. Qed.
Print Assumptions C11_alias_resolves_partial.

(** Missing: with a suffix it is false.  Adding [SUM(x) AS v], [SUM(y) AS v] (renamed v_1)
    and then [SUM(y) AS t] leaves the third object with alias [v], which is [SUM(x)]. *)
Theorem C11_alias_resolves_refuted :
  let h := ex_heap [ex_col "SUM(x)" "v"; ex_col "SUM(y)" "v"; ex_col "SUM(y)" "t"] in
  exists h' L', columns_add_all 10 h [] [0; 1; 2] = Ok (h', L') /\
    named h' 2 "v" /\ selects h' L' "SUM(x)" "v" /\ ~ selects h' L' "SUM(y)" "v".
Proof. exact l_C11_alias_resolves_refuted. Qed.
Print Assumptions C11_alias_resolves_refuted.

Example C11_example :
  let h := ex_heap [ex_col "SUM(x)" "v"; ex_col "SUM(y)" "w"; ex_col "SUM(y)" "t"] in
  exists h' L', columns_add_all 10 h [] [0; 1; 2] = Ok (h', L') /\ named h' 2 "w" /\ L' = [0; 1].
Proof. eexists _, _. split; [reflexivity|]. split; vm_compute; reflexivity. Qed.

(** ** C12 *)

(** [Datasources.add]: terminates; the tables already there are kept as they are; at most one
    new table is appended, only if no table has that text; the returned alias is the name of
    a table with exactly the added text. *)
Theorem C12_add : forall h d t alias fuel, renderable h t ->
  NoDup (dkeys d) -> (forall k t, In (k, t) d -> renderable h t) ->
  List.length d + 2 <= fuel ->
  exists d' a u s, ds_add fuel h d alias t = Ok (d', a) /\
    table_str h t = Ok s /\ dlookup d' a = Some u /\ table_str h u = Ok s /\
    NoDup (dkeys d') /\
    ((d' = d) \/
     (d' = d ++ [(a, t)] /\ ~ In a (dkeys d) /\ (~ In alias (dkeys d) -> a = alias) /\
      forall k u, In (k, u) d -> table_str h u <> Ok s)).
Proof. exact ds_add_ok. Qed.
Print Assumptions C12_add.

(** [Datasources.merge]: terminates without error; every table keeps its name, its columns
    keep alias and expression and are only extended; only the returned table may change; and
    the returned table provides what was added. *)
Theorem C12_merge : forall fuel h d alias q,
  good_tables h d -> Forall (fun l => wf_column (h l)) (q_cols q) ->
  distinct_columns h (q_cols q) -> fresh_cols d q ->
  total_cols d + List.length (q_cols q) + List.length d + 2 <= fuel ->
  exists h' d' a, ds_merge fuel h d alias q = Ok (h', d', a) /\
    keeps_tables d d' /\ keeps_columns h d h' /\ good_tables h' d' /\
    (exists t, dlookup d' a = Some t /\ provides h' t q) /\
    (forall k t, In (k, t) d -> k <> a -> In (k, t) d').
Proof. exact ds_merge_ok. Qed.
Print Assumptions C12_merge.

(** Names tried for a WITH table never repeat, so renaming terminates. *)
Theorem C12_suffixes_never_repeat : forall a j k,
  Nat.iter (S j) add_suffix a = Nat.iter (S k) add_suffix a -> j = k.
Proof. exact iter_add_suffix_inj'. Qed.
Print Assumptions C12_suffixes_never_repeat.

Example C12_example :
  let h := ex_heap [ex_col "SUM(x)" "a"; ex_col "SUM(y)" "a"; ex_col "SUM(z)" "b"] in
  let q0 := mkSql [0] false "T" "" "g" "" "" in
  let q1 := mkSql [1] false "T" "" "g" "" "" in
  let q2 := mkSql [2] false "U" "" "g" "" "" in
  match ds_merge 20 h [("Tab", TSql q0)] "Tab" q1 with
  | Ok (h', d', a) => a = "Tab" /\ d' = [("Tab", TSql (set_cols q0 [0; 1]))] /\
      col_alias (h' 1) = Ok (Some "a_1") /\
      (match ds_merge 20 h' d' "Tab" q2 with
       | Ok (_, d'', a') => a' = "Tab_1" /\ dkeys d'' = ["Tab"; "Tab_1"]
       | Err _ => False end)
  | Err _ => False
  end.
Proof. vm_compute. repeat split; reflexivity. Qed.
