(** C83: PercentChange and AbsoluteChange over a MetricList: SQL and pandas give the same table, and every column is the comparison of that metric alone. *)
From Coq Require Import Reals List Bool String Arith Permutation Sorted Lia Lra.
From Verif Require Import M_Num M_Frame L_Frame M_Ops S_Ops M_Leaf M_SqlGlobal M_SqlLeaf S_SqlLeaf L_SqlLeaf L_SqlLeaf2 M_SqlOps S_SqlOps L_SqlOps L_SqlOps7 L_SqlBin L_SqlScope L_SqlSort M_SqlList S_SqlList M_SqlMixedJack M_SqlMH S_SqlMH M_OpList S_OpList L_OpList2 L_OpList3 M_SqlMHList S_SqlMHList L_SqlMHList1 M_SqlChangeList S_SqlChangeList L_SqlChangeList1 L_SqlChangeList2 L_SqlChangeList3 P_SqlOps P_SqlList P_SqlMH P_SqlMHList P_OpList.
Import ListNotations.
Open Scope string_scope.
Open Scope list_scope.

(** Any leaf metrics (C16) with any filters, and data that fits every leaf and the comparison of every metric (C62): the SQL has a column for every metric, called
    after it, and the rows of the operation over the whole list by pandas. *)
Theorem C83_same_rows : forall parse srt psort lsort t x split_by,
  db_sorts srt -> pandas_sorts psort -> frames_sort psort lsort -> supported_chl x split_by ->
  chl_leaves_fit parse x split_by t -> chl_fits parse psort x split_by (pandas_table t) ->
  exists names rows wide,
    chl_sql parse srt x split_by t = Some (names, rows) /\
    names = List.map (fun m => String.append (value_name m) (if h_percent x then " Percent Change" else " Absolute Change")) (h_metrics x) /\
    olist_compute parse psort lsort (LChange (h_percent x) (h_cond x) (h_base x) (h_include x)) (h_where x) (h_metrics x) (h_list_where x) split_by (pandas_table t) = Some (h_metrics x, wide) /\
    Permutation (list_shown (split_by ++ h_cond x) names rows) (List.map (fun kv => (List.map Some (fst kv), snd kv)) wide).
Proof.
  intros parse srt psort lsort t x s H1 H2 H3 H4 H5 H6. destruct (whole parse srt psort lsort x s t H1 H2 H3 H4 H5 H6) as (wide & E1 & E2 & HP).
  eexists _, _, wide. split; [exact E1|]. split; [reflexivity|]. split; [exact E2|exact HP].
Qed.
Print Assumptions C83_same_rows.
(** The column of a metric does not depend on the other metrics of the list: it is the comparison of that metric alone, by pandas. *)
Theorem C83_each_alone : forall parse srt psort t x split_by names rows m,
  db_sorts srt -> pandas_sorts psort -> supported_chl x split_by ->
  chl_leaves_fit parse x split_by t -> chl_fits parse psort x split_by (pandas_table t) ->
  chl_sql parse srt x split_by t = Some (names, rows) -> In m (h_metrics x) ->
  exists result,
    op_compute parse psort (OChange (h_percent x) (h_cond x) (h_base x) (h_include x) m (h_where x ++ h_list_where x)) split_by (pandas_table t) = Some result /\
    same_rows (shown (split_by ++ h_cond x) (String.append (value_name m) (if h_percent x then " Percent Change" else " Absolute Change")) rows) result.
Proof.
  intros parse srt psort t x s names rows m H1 H2 H3 H4 H5 E Hm. rewrite sql_is in E by exact H3. injection E as _ <-.
  destruct (metric_shown x s H3 parse srt psort t H1 H2 H4 H5 m Hm) as (res & Er & Hc). exists res. split; [exact Er|exact Hc].
Qed.
(** No row but those of the children: without include_base, none of the baseline. *)
Theorem C83_no_baseline : forall parse srt psort t x split_by names rows r,
  db_sorts srt -> pandas_sorts psort -> supported_chl x split_by ->
  chl_leaves_fit parse x split_by t -> chl_fits parse psort x split_by (pandas_table t) ->
  chl_sql parse srt x split_by t = Some (names, rows) -> h_include x = false -> In r rows ->
  List.map (fun c => label (r c)) (h_cond x) <> List.map Some (h_base x).
Proof.
  intros parse srt psort t x s names rows r H1 H2 H3 H4 H5 E Hi Hr Hb.
  assert (exists m, In m (h_metrics x)) as [m Hm] by (destruct H3 as (_ & _ & Hne & _); clear - Hne; destruct (h_metrics x) as [|m ms]; [congruence|]; exists m; now left).
  destruct (C83_each_alone parse srt psort t x s names rows m H1 H2 H3 H4 H5 E Hm) as (res & Er & HP). unfold same_rows, shown in HP.
  apply (in_map (fun r : row => (List.map (fun c => label (r c)) (s ++ h_cond x), fetch (number (r (String.append (value_name m) (if h_percent x then " Percent Change" else " Absolute Change"))))))) in Hr.
  apply (Permutation_in _ HP) in Hr. apply in_map_iff in Hr as ([k v] & Ek & Hk). apply (f_equal fst) in Ek. cbn [fst] in Ek. rewrite Hi in Er.
  cbn [op_compute] in Er. destruct (op_compute _ _ _ _ _) as [F|]; [|discriminate].
  assert (key_eqb (cond_of (List.length s) (List.length (h_cond x)) k) (h_base x) = false) as Hn.
  { assert (exists f, compare_with_base f (List.length s) (List.length (h_cond x)) (h_base x) false F = Some res) as [f Ef] by (destruct (h_percent x); eexists; exact Er).
    unfold compare_with_base in Ef. destruct (xs _ _ _ F); [|discriminate]. injection Ef as <-. apply filter_In in Hk as [_ Hk]. cbn [fst] in Hk. now apply negb_true_iff. }
  apply key_eqb_neq in Hn. apply Hn. rewrite map_app in Ek.
  assert (cond_of (List.length s) (List.length (h_cond x)) k = h_base x) as <-; [|reflexivity].
  apply some_inj. rewrite <- Hb. rewrite <- L_SqlOps2.scond_some, Ek. unfold L_SqlOps2.scond. rewrite L_OpsB.skipn_app_len by (now rewrite map_length). rewrite firstn_all2 by (rewrite map_length; lia). reflexivity.
Qed.

(** ** A case: PercentChange("e", "0", MetricList([Sum("x"), Sum("y")])) *)
Definition chl1 := CHL true ["e"] ["0"] false [sum_x; sum_y] [] [].
Lemma pos_y : Fin ((2 + 4 + 7 + 1) / 6 - 1) = Fin (4 / 3). Proof. f_equal. lra. Qed.
Lemma child_x : child_of parse0 pd_sort (change_of chl1) [] [] [] (pandas_table dataxy) sum_x = Some [(["0"], Fin 2); (["1"], Fin 3)].
Proof. unfold child_of. assert (filter (pfilters parse0 []) (filter (pfilters parse0 []) (pandas_table dataxy)) = pandas_table dataxy) as -> by reflexivity. cbn. frames. Qed.
Lemma child_y : child_of parse0 pd_sort (change_of chl1) [] [] [] (pandas_table dataxy) sum_y = Some [(["0"], Fin 6); (["1"], Fin 14)].
Proof. unfold child_of. assert (filter (pfilters parse0 []) (filter (pfilters parse0 []) (pandas_table dataxy)) = pandas_table dataxy) as -> by reflexivity. cbn. frames. Qed.
Lemma chl_supported : supported_chl chl1 [].
Proof.
  split; [discriminate|]. split; [reflexivity|]. split; [discriminate|]. split; [|split].
  - intros m [<-|[<-|[]]]; (split; [exact Coq.Init.Logic.I|]; split; [cbn; repeat split; try discriminate; repeat constructor; cbn; intuition discriminate|cbn; intuition discriminate]).
  - cbn. repeat constructor; cbn; intuition discriminate.
  - repeat constructor. intros H. lazy -[Rplus Rmult Rinv Ropp IZR] in H. inversion H.
Qed.
Lemma chl_leaves : chl_leaves_fit parse0 chl1 [] dataxy.
Proof.
  intros m Hm mt ab lc bb Hb. destruct Hm as [<-|[<-|[]]]; destruct Hb as [E|[]]; injection E as <- <- <- <-.
  - apply (sum_col_fits parse0 "x" []); [discriminate|intros []|intros f []|intros r c Hr _; now apply data_cells|intros r Hr; now apply data_cells].
  - apply (sum_col_fits parse0 "y" []); [discriminate|intros []|intros f []|intros r c Hr _; now apply data_cells|intros r Hr; now apply data_cells].
Qed.
Lemma chl_data : chl_fits parse0 pd_sort chl1 [] (pandas_table dataxy).
Proof.
  intros m fr Hm E. destruct Hm as [<-|[<-|[]]]; cbn [chl1 h_where h_list_where] in E; [rewrite child_x in E|rewrite child_y in E]; injection E as <-; (split; [discriminate|]); cbn [chl1 h_base List.length];
    intros [|? ?] [|c0 [|? ?]] r v; cbn [List.length]; intros E1 E2 Hv; try discriminate; cbn [app] in Hv;
    (destruct Hv as [Hv|[Hv|[]]]; injection Hv as _ <- _; eexists; (split; [left; reflexivity|intros _ E0; injection E0 as E0; lra])).
Qed.
Lemma chl_pandas : olist_compute parse0 some_sort label_sort (change_of chl1) [] [sum_x; sum_y] [] [] (pandas_table dataxy) = Some ([sum_x; sum_y], [(["1"], [Fin 50; Fin (400 / 3)])]).
Proof.
  assert (child_of parse0 some_sort (change_of chl1) [] [] [] (pandas_table dataxy) sum_x = Some [(["0"], Fin 2); (["1"], Fin 3)]) as Ex by exact child_x.
  assert (child_of parse0 some_sort (change_of chl1) [] [] [] (pandas_table dataxy) sum_y = Some [(["0"], Fin 6); (["1"], Fin 14)]) as Ey by exact child_y.
  unfold child_of in Ex, Ey. unfold olist_compute, list_results. cbn [flat_map]. rewrite Ex, Ey. run. compare. run. frames.
Qed.
Example C83_case : db_sorts db_sort /\ pandas_sorts pd_sort /\ frames_sort some_sort label_sort /\
  supported_chl chl1 [] /\ chl_leaves_fit parse0 chl1 [] dataxy /\ chl_fits parse0 pd_sort chl1 [] (pandas_table dataxy) /\
  olist_compute parse0 some_sort label_sort (change_of chl1) [] [sum_x; sum_y] [] [] (pandas_table dataxy) = Some ([sum_x; sum_y], [(["1"], [Fin 50; Fin (400 / 3)])]).
Proof. split; [exact db_sort_sorts|]. split; [exact pd_sort_sorts|]. split; [apply frames_sort_exists|]. split; [exact chl_supported|]. split; [exact chl_leaves|]. split; [exact chl_data|exact chl_pandas]. Qed.

(** ** Where they differ *)
(** The same metric under two names: pandas gives two columns, the query has one. *)
Theorem C83_two_names_refuted : let x := CHL true ["e"] ["0"] false [sum_x; sum_x_b] [] [] in
  (forall parse psort lsort df cols rows, olist_compute parse psort lsort (change_of x) [] (h_metrics x) [] [] df = Some (cols, rows) -> cols = [sum_x; sum_x_b]) /\
  (forall parse srt t names rows, chl_sql parse srt x [] t = Some (names, rows) -> names = ["sum(x) Percent Change"]).
Proof.
  cbn zeta. split.
  - intros parse psort lsort df cols rows E. apply C74_columns in E as ->. reflexivity.
  - assert (exists e, chl_raw (CHL true ["e"] ["0"] false [sum_x; sum_x_b] [] []) [] = Some (LLeaf [("sum(x)", e)] [] ["e"]) /\
      List.map fst (chl_columns (CHL true ["e"] ["0"] false [sum_x; sum_x_b] [] []) [] (LLeaf [("sum(x)", e)] [] ["e"])) = ["sum(x) Percent Change"]) as (e & R & C).
    { match goal with |- exists _, ?q = _ /\ _ => known q end. subst q'. eexists. split; [reflexivity|].
      match goal with |- ?q = _ => known q end. subst q'. reflexivity. }
    intros parse srt t names rows E. unfold chl_sql in E. rewrite R in E. injection E as <- _. exact C.
Qed.
