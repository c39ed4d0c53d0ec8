(** C84: Distribution over a MetricList: SQL and pandas give the same table, and every column is the distribution of that metric alone. *)
From Coq Require Import Reals List Bool String Arith Permutation Sorted Lia Lra.
From Verif Require Import M_Num M_Frame L_Frame M_Ops S_Ops M_Leaf M_SqlGlobal M_SqlLeaf S_SqlLeaf L_SqlLeaf L_SqlLeaf2 M_SqlOps S_SqlOps L_SqlOps L_SqlOps7 L_SqlBin L_SqlScope L_SqlSort M_SqlList S_SqlList M_SqlMixedJack M_SqlMH S_SqlMH M_OpList S_OpList L_OpList2 L_OpList3 M_SqlMHList S_SqlMHList L_SqlMHList1 M_SqlDistList S_SqlDistList L_SqlDistList1 L_SqlDistList2 P_SqlOps P_SqlList P_SqlMH P_SqlMHList P_OpList.
Import ListNotations.
Open Scope string_scope.
Open Scope list_scope.

(** Any leaf metrics (C16) with any filters, and data that fits every leaf and the distribution of every metric (C62): the SQL has a column for every metric,
    called after it, and the rows of the operation over the whole list by pandas. *)
Theorem C84_same_rows : forall parse srt psort lsort t x split_by,
  db_sorts srt -> pandas_sorts psort -> frames_sort psort lsort -> supported_dl x split_by ->
  dl_leaves_fit parse x split_by t -> dl_fits parse psort x split_by (pandas_table t) ->
  exists names rows wide,
    dl_sql parse srt x split_by t = Some (names, rows) /\
    names = List.map (fun m => String.append "Distribution of " (value_name m)) (d_metrics x) /\
    olist_compute parse psort lsort (LDist (d_over x)) (d_where x) (d_metrics x) (d_list_where x) split_by (pandas_table t) = Some (d_metrics x, wide) /\
    Permutation (list_shown (split_by ++ d_over x) names rows) (List.map (fun kv => (List.map Some (fst kv), snd kv)) wide).
Proof.
  intros parse srt psort lsort t x s H1 H2 H3 H4 H5 H6. destruct (whole x s H4 parse srt psort t H1 H2 H5 H6 lsort H3) as (wide & E1 & E2 & HP).
  eexists _, _, wide. split; [exact E1|]. split; [reflexivity|]. split; [exact E2|exact HP].
Qed.
Print Assumptions C84_same_rows.
(** The column of a metric does not depend on the other metrics of the list: it is the distribution of that metric alone, by pandas. *)
Theorem C84_each_alone : forall parse srt psort t x split_by names rows m,
  db_sorts srt -> pandas_sorts psort -> supported_dl x split_by ->
  dl_leaves_fit parse x split_by t -> dl_fits parse psort x split_by (pandas_table t) ->
  dl_sql parse srt x split_by t = Some (names, rows) -> In m (d_metrics x) ->
  exists result,
    op_compute parse psort (ODist (d_over x) m (d_where x ++ d_list_where x)) split_by (pandas_table t) = Some result /\
    same_rows (shown (split_by ++ d_over x) (String.append "Distribution of " (value_name m)) rows) result.
Proof.
  intros parse srt psort t x s names rows m H1 H2 H3 H4 H5 E Hm. rewrite sql_is in E by exact H3. injection E as _ <-.
  destruct (metric_shown x s H3 parse srt psort t H1 H2 H4 H5 m Hm) as (res & Er & Hc). exists res. split; [exact Er|exact Hc].
Qed.
(** No row is lost or invented: the query has the rows of the table of its children. *)
Theorem C84_rows_kept : forall parse srt x split_by t names rows, dl_sql parse srt x split_by t = Some (names, rows) ->
  exists q, dl_raw x split_by = Some q /\
    List.map (fun r => List.map r (split_by ++ d_over x)) rows = List.map (fun r => List.map r (split_by ++ d_over x)) (run_table parse srt q t).
Proof.
  intros parse srt x s t names rows E. unfold dl_sql in E. destruct (dl_raw x s) as [q|]; [|discriminate]. injection E as _ <-. exists q. split; [reflexivity|].
  rewrite !map_map. apply map_ext. intros r. apply map_ext_in. intros c Hc. unfold dl_index. now rewrite (proj2 (L_SqlGlobal.mem_in c _) Hc).
Qed.

(** ** A case: Distribution("e", MetricList([Sum("x"), Sum("y")])) *)
Definition dl1 := DL ["e"] [sum_x; sum_y] [] [].
Lemma child_x : child_of parse0 pd_sort (dist_of dl1) [] [] [] (pandas_table dataxy) sum_x = Some [(["0"], Fin 2); (["1"], Fin 3)].
Proof. unfold child_of. assert (filter (pfilters parse0 []) (filter (pfilters parse0 []) (pandas_table dataxy)) = pandas_table dataxy) as -> by reflexivity. cbn. frames. Qed.
Lemma child_y : child_of parse0 pd_sort (dist_of dl1) [] [] [] (pandas_table dataxy) sum_y = Some [(["0"], Fin 6); (["1"], Fin 14)].
Proof. unfold child_of. assert (filter (pfilters parse0 []) (filter (pfilters parse0 []) (pandas_table dataxy)) = pandas_table dataxy) as -> by reflexivity. cbn. frames. Qed.
Lemma dl_supported : supported_dl dl1 [].
Proof.
  split; [discriminate|]. split; [|split].
  - intros m [<-|[<-|[]]]; (split; [exact Coq.Init.Logic.I|]; split; [cbn; repeat split; try discriminate; repeat constructor; cbn; intuition discriminate|cbn; intuition discriminate]).
  - cbn. repeat constructor; cbn; intuition discriminate.
  - repeat constructor. intros H. lazy -[Rplus Rmult Rinv Ropp IZR] in H. inversion H.
Qed.
Lemma dl_leaves : dl_leaves_fit parse0 dl1 [] dataxy.
Proof.
  intros m Hm mt ab lc bb Hb. destruct Hm as [<-|[<-|[]]]; destruct Hb as [E|[]]; injection E as <- <- <- <-.
  - apply (sum_col_fits parse0 "x" []); [discriminate|intros []|intros f []|intros r c Hr _; now apply data_cells|intros r Hr; now apply data_cells].
  - apply (sum_col_fits parse0 "y" []); [discriminate|intros []|intros f []|intros r c Hr _; now apply data_cells|intros r Hr; now apply data_cells].
Qed.
Lemma dl_data : dl_fits parse0 pd_sort dl1 [] (pandas_table dataxy).
Proof.
  intros m fr Hm E. destruct Hm as [<-|[<-|[]]]; cbn [dl1 d_where d_list_where] in E; [rewrite child_x in E|rewrite child_y in E]; injection E as <-; intros k v _ E0; exfalso; cbn in E0; unfold total, nums, vals, S_Ops.group in E0; cbn in E0; lra.
Qed.
Lemma dl_pandas : olist_compute parse0 some_sort label_sort (dist_of dl1) [] [sum_x; sum_y] [] [] (pandas_table dataxy) = Some ([sum_x; sum_y], [(["0"], [Fin (2 / 5); Fin (3 / 10)]); (["1"], [Fin (3 / 5); Fin (7 / 10)])]).
Proof.
  assert (child_of parse0 some_sort (dist_of dl1) [] [] [] (pandas_table dataxy) sum_x = Some [(["0"], Fin 2); (["1"], Fin 3)]) as Ex by exact child_x.
  assert (child_of parse0 some_sort (dist_of dl1) [] [] [] (pandas_table dataxy) sum_y = Some [(["0"], Fin 6); (["1"], Fin 14)]) as Ey by exact child_y.
  unfold child_of in Ex, Ey. unfold olist_compute, list_results. cbn [flat_map]. rewrite Ex, Ey. run. compare. run. frames.
Qed.
Example C84_case : db_sorts db_sort /\ pandas_sorts pd_sort /\ frames_sort some_sort label_sort /\
  supported_dl dl1 [] /\ dl_leaves_fit parse0 dl1 [] dataxy /\ dl_fits parse0 pd_sort dl1 [] (pandas_table dataxy) /\
  olist_compute parse0 some_sort label_sort (dist_of dl1) [] [sum_x; sum_y] [] [] (pandas_table dataxy) = Some ([sum_x; sum_y], [(["0"], [Fin (2 / 5); Fin (3 / 10)]); (["1"], [Fin (3 / 5); Fin (7 / 10)])]).
Proof. split; [exact db_sort_sorts|]. split; [exact pd_sort_sorts|]. split; [apply frames_sort_exists|]. split; [exact dl_supported|]. split; [exact dl_leaves|]. split; [exact dl_data|exact dl_pandas]. Qed.

(** ** Where they differ *)
(** The same metric under two names: pandas gives two columns, the query has one. *)
Theorem C84_two_names_refuted : let x := DL ["e"] [sum_x; sum_x_b] [] [] in
  (forall parse psort lsort df cols rows, olist_compute parse psort lsort (dist_of x) [] (d_metrics x) [] [] df = Some (cols, rows) -> cols = [sum_x; sum_x_b]) /\
  (forall parse srt t names rows, dl_sql parse srt x [] t = Some (names, rows) -> names = ["Distribution of sum(x)"]).
Proof.
  cbn zeta. split.
  - intros parse psort lsort df cols rows E. apply C74_columns in E as ->. reflexivity.
  - assert (exists e, dl_raw (DL ["e"] [sum_x; sum_x_b] [] []) [] = Some (LLeaf [("sum(x)", e)] [] ["e"]) /\
      List.map fst (dl_columns (DL ["e"] [sum_x; sum_x_b] [] []) [] (LLeaf [("sum(x)", e)] [] ["e"])) = ["Distribution of sum(x)"]) as (e & R & C).
    { match goal with |- exists _, ?q = _ /\ _ => known q end. subst q'. eexists. split; [reflexivity|].
      match goal with |- ?q = _ => known q end. subst q'. reflexivity. }
    intros parse srt t names rows E. unfold dl_sql in E. rewrite R in E. injection E as <- _. exact C.
Qed.
