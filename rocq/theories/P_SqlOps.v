(** C62: an operation computed by the generated SQL and by pandas gives the same rows.
    C63: the generated query is well formed. *)
From Coq Require Import Reals List Bool String Arith Permutation Sorted Lia Lra.
From Verif Require Import M_Num M_Frame L_Frame M_Ops S_Ops M_Leaf M_SqlGlobal M_SqlLeaf S_SqlLeaf L_SqlLeaf L_SqlLeaf2 M_SqlOps S_SqlOps L_SqlOps7 L_SqlBin L_SqlScope L_SqlSort.
Import ListNotations.
Open Scope string_scope.
Open Scope list_scope.

(** ** C62 *)
(** [m]: Distribution, CumulativeDistribution, PercentChange, AbsoluteChange, HHI, Entropy, TopK, Nxx on top
    of each other, of arithmetic on such operations (CompositeMetric) and of any arithmetic on leaf metrics, each with its
    filters; [t]: any table on which
    the leaves agree (C16) and no operation divides a nonzero number by zero, misses its baseline, has to
    break ties or misses the keys of the other operand; any way the database and pandas sort.  Both give the same rows. *)
Theorem C62_same_rows : forall parse srt psort t m split_by,
  db_sorts srt -> pandas_sorts psort -> supported_tree split_by m ->
  leaves_fit parse m split_by t ->
  tree_fits parse psort m split_by (pandas_table t) ->
  exists result, op_compute parse psort m split_by (pandas_table t) = Some result /\
    same_rows (shown (split_by ++ extra_idx m) (value_name m) (run_sql parse srt (op_to_sql m split_by) t)) result.
Proof.
  intros parse srt psort t m by_ H1 H2 H3 H4 H5. destruct (whole_tree parse srt psort t m by_ H1 H2 H3 H4 H5) as (F & E & _ & _ & H). eauto.
Qed.
Print Assumptions C62_same_rows.
(** So the result of the query does not depend on how the database sorts. *)
Theorem C62_any_database : forall parse srt srt' psort t m split_by,
  db_sorts srt -> db_sorts srt' -> pandas_sorts psort -> supported_tree split_by m ->
  leaves_fit parse m split_by t ->
  tree_fits parse psort m split_by (pandas_table t) ->
  Permutation (shown (split_by ++ extra_idx m) (value_name m) (run_sql parse srt (op_to_sql m split_by) t))
              (shown (split_by ++ extra_idx m) (value_name m) (run_sql parse srt' (op_to_sql m split_by) t)).
Proof.
  intros parse srt srt' psort t m by_ H1 H1' H2 H3 H4 H5.
  destruct (C62_same_rows parse srt psort t m by_ H1 H2 H3 H4 H5) as (F & E & H).
  destruct (C62_same_rows parse srt' psort t m by_ H1' H2 H3 H4 H5) as (F' & E' & H').
  assert (F = F') as <- by congruence. unfold same_rows in *. now rewrite H, H'.
Qed.
(** The sorts asked for exist. *)
Theorem C62_sorts_exist : db_sorts db_sort /\ db_sorts db_sort_rev /\ pandas_sorts pd_sort.
Proof. split; [exact db_sort_sorts|]. split; [exact db_sort_rev_sorts|exact pd_sort_sorts]. Qed.

(** ** C63 *)
(** Every column the query mentions is a column of its source, at every level, and its columns are the
    index columns and the value, for any data. *)
Theorem C63_well_formed : forall m split_by, supported_tree split_by m ->
  well_scoped (op_to_sql m split_by) = true /\
  all_columns (op_to_sql m split_by) = split_by ++ extra_idx m ++ [value_name m].
Proof. intros. now apply query_ok. Qed.
Print Assumptions C63_well_formed.

(** ** A case *)
Definition parse0 (f : string) : cond := CNum (OCol "x") CGt (ONum 0).
Definition cell3 (e p : option string) (x : option R) : srow := SRow (fun c => if string_dec c "e" then e else p) (fun _ => x).
Definition sum_x := OLeaf (MLeaf (Lf (LSum (Col "x"))) []) "sum(x)".
Definition data : stable :=
  [cell3 (Some "0") (Some "a") (Some 1%R); cell3 (Some "0") (Some "b") (Some 3%R);
   cell3 (Some "1") (Some "a") (Some 2%R); cell3 (Some "1") (Some "b") (Some 2%R); cell3 (Some "1") (Some "b") (Some (-1)%R)].
(** Sum of a column without NULLs, split by columns without NULLs, under filters without negation. *)
Lemma sum_leaf_fits parse fs by_ t : by_ <> [] -> ~ In "" fs -> (forall f, In f fs -> positive (parse f)) ->
  (forall r c, In r t -> In c by_ -> slab r c <> None) -> (forall r, In r t -> snum r "x" <> None) ->
  leaf_fits parse fs (MLeaf (Lf (LSum (Col "x"))) []) fs [] by_ t.
Proof.
  intros Hb Hf Hpos Hl Hx. split; [|split].
  - intros l gs [E|[]]. rewrite app_nil_r in E. injection E as <- <-. split; [exact I|]. split; [exact Hf|]. intros f r Hi _. apply positive_same. auto.
  - intros r c Hr _ Hc. auto.
  - intros k [[H _]|(r & Hr & Hp & Hk)]; [contradiction|]. split.
    + intros l gs [E|[]]. rewrite app_nil_r in E. injection E as <- <-. split; [|exact I]. right. intros E.
      assert (In r (used_rows parse by_ k fs t)) as H; [|rewrite E in H; destruct H]. apply filter_In. split; [exact Hr|]. rewrite Hp, Hk. cbn. now destruct (skey_dec _ _).
    + exists r. split.
      * apply filter_In. split; [apply filter_In; auto|]. rewrite Hk. now destruct (skey_dec _ _).
      * cbn. apply Hx, Hr.
Qed.
Lemma same_neq {A} (a b : A) : a <> b -> same a b = false. Proof. intros N. apply not_true_is_false. intros E. apply N. now apply same_eq. Qed.
Lemma Rltb_t a b : (a < b)%R -> Rltb a b = true. Proof. unfold Rltb. destruct (Rlt_dec a b); [auto|contradiction]. Qed.
Lemma Rltb_f a b : ~ (a < b)%R -> Rltb a b = false. Proof. unfold Rltb. destruct (Rlt_dec a b); [contradiction|auto]. Qed.
Lemma Reqb_f a b : a <> b -> Reqb a b = false. Proof. unfold Reqb. destruct (Req_EM_T a b); [contradiction|auto]. Qed.
Lemma Reqb_t a b : a = b -> Reqb a b = true. Proof. unfold Reqb. destruct (Req_EM_T a b); [auto|contradiction]. Qed.
Ltac compare := repeat match goal with
  | |- context[Rltb ?a ?b] => (rewrite (Rltb_t a b) by lra) || (rewrite (Rltb_f a b) by lra)
  | |- context[Reqb ?a ?b] => (rewrite (Reqb_f a b) by lra) || (rewrite (Reqb_t a b) by lra)
  | |- context[Req_EM_T ?a ?b] => destruct (Req_EM_T a b) as [?Hc|?Hc]; [try (exfalso; lra)|try (exfalso; lra)]
  | |- context[Rlt_dec ?a ?b] => destruct (Rlt_dec a b) as [?Hc|?Hc]; [try (exfalso; lra)|try (exfalso; lra)]
  end.
Lemma fin_eq a b : a = b -> Fin a = Fin b. Proof. congruence. Qed.
Ltac frames := repeat first [reflexivity | apply fin_eq; lra | apply (f_equal (@Some _)) | apply (f_equal2 (@cons _)) | apply (f_equal2 (@pair _ _))].
(** AbsoluteChange("e", "0", Distribution("p", Sum("x"), where "x > 0")) *)
Definition tree1 := OChange false ["e"] ["0"] false (ODist ["p"] sum_x ["x > 0"]) [].
Definition sums1 : rframe := [(["0"; "a"], Fin 1); (["0"; "b"], Fin 3); (["1"; "a"], Fin 2); (["1"; "b"], Fin 2)].
Definition shares1 : rframe := [(["0"; "a"], Fin (1 / 4)); (["0"; "b"], Fin (3 / 4)); (["1"; "a"], Fin (2 / 4)); (["1"; "b"], Fin (2 / 4))].
Lemma filtered1 : filter (pfilters parse0 ["x > 0"]) (filter (pfilters parse0 []) (pandas_table data)) = pandas_table (firstn 4 data).
Proof. cbn -[Rltb]. compare. reflexivity. Qed.
Lemma computed1 : op_compute parse0 pd_sort sum_x ["e"; "p"] (pandas_table (firstn 4 data)) = Some sums1.
Proof. unfold sums1. cbn. frames. Qed.
Lemma shared1 : op_compute parse0 pd_sort (ODist ["p"] sum_x ["x > 0"]) ["e"] (filter (pfilters parse0 []) (pandas_table data)) = Some shares1.
Proof.
  change (option_map (distribution 1) (op_compute parse0 pd_sort sum_x ["e"; "p"] (filter (pfilters parse0 ["x > 0"]) (filter (pfilters parse0 []) (pandas_table data)))) = Some shares1).
  rewrite filtered1, computed1. cbn -[Reqb]. compare. unfold shares1. frames.
Qed.
Example C62_case : exists rows,
  db_sorts db_sort /\ pandas_sorts pd_sort /\ supported_tree [] tree1 /\
  leaves_fit parse0 tree1 [] data /\
  tree_fits parse0 pd_sort tree1 [] (pandas_table data) /\
  op_compute parse0 pd_sort tree1 [] (pandas_table data) = Some rows /\ rows = [(["1"; "a"], Fin (1 / 4)); (["1"; "b"], Fin (- 1 / 4))].
Proof.
  eexists. split; [exact db_sort_sorts|]. split; [exact pd_sort_sorts|]. split; [|split; [|split; [|split]]].
  - cbn. repeat split; try discriminate; try (intros [H|[H|[]]]; discriminate); try (intros [H|[]]; discriminate). repeat constructor; cbn; intuition discriminate.
  - intros mt ab lc bb [E|[]]. injection E as <- <- <- <-. apply (sum_leaf_fits parse0 ["x > 0"]); [discriminate|intros [H|[]]; discriminate|intros; cbn; discriminate| |].
    + intros r c Hr Hc. cbn in Hr, Hc. destruct Hc as [<-|[<-|[]]]; repeat (destruct Hr as [<-|Hr]; [discriminate|]); destruct Hr.
    + intros r Hr. cbn in Hr. repeat (destruct Hr as [<-|Hr]; [discriminate|]); destruct Hr.
  - cbn [tree_fits tree1 sum_x]. fold sum_x. cbn [app List.length]. split; [split; [exact I|]|].
    + intros fr E. rewrite filtered1, computed1 in E. injection E as <-. intros k v Hi. cbn in Hi.
      repeat (destruct Hi as [E|Hi]; [injection E as <- <-; cbn; lra|]). destruct Hi.
    + intros fr E. rewrite shared1 in E. injection E as <-. split; [discriminate|]. intros [|? ?] [|c0 [|? ?]] r v H1 H2 Hi; try discriminate. cbn in Hi.
      repeat (destruct Hi as [E|Hi]; [injection E as <- <- <-; eexists; split; [cbn; tauto|discriminate]|]). destruct Hi.
  - match goal with |- _ = ?rows => change (match op_compute parse0 pd_sort (ODist ["p"] sum_x ["x > 0"]) ["e"] (filter (pfilters parse0 []) (pandas_table data)) with
            | Some fr => absolute_change 0 1 ["0"] false fr | None => None end = rows) end. rewrite shared1. cbn. reflexivity.
  - cbn. frames.
Qed.

(** CumulativeDistribution("p", Sum("x"), sorted by the values, descending) and Entropy("p", Sum("x")), split by e *)
Definition four : stable := firstn 4 data.
Definition tree2 := OCum ["p"] CumValues false sum_x [].
Definition tree3 d := ODiv d ["p"] sum_x [].
Definition data2 : stable := firstn 3 data.
Lemma computed2 : op_compute parse0 pd_sort sum_x ["e"; "p"] (filter (pfilters parse0 []) (pandas_table data2)) = Some (firstn 3 sums1).
Proof. unfold sums1. cbn. frames. Qed.
Lemma leaf2 : leaf_fits parse0 [] (MLeaf (Lf (LSum (Col "x"))) []) [] [] ["e"; "p"] data2.
Proof.
  apply (sum_leaf_fits parse0 []); [discriminate|intros []|intros f []| |].
  - intros r c Hr Hc. cbn in Hr, Hc. destruct Hc as [<-|[<-|[]]]; repeat (destruct Hr as [<-|Hr]; [discriminate|]); destruct Hr.
  - intros r Hr. cbn in Hr. repeat (destruct Hr as [<-|Hr]; [discriminate|]); destruct Hr.
Qed.
Example C62_case_cumulative : supported_tree ["e"] tree2 /\
  leaves_fit parse0 tree2 ["e"] data2 /\
  tree_fits parse0 pd_sort tree2 ["e"] (pandas_table data2).
Proof.
  split; [|split; [intros mt ab lc bb [E|[]]; injection E as <- <- <- <-; exact leaf2|]].
  - cbn. repeat split; try discriminate; try (intros [H|[H|[]]]; discriminate); try (intros [H|[]]; discriminate). repeat constructor; cbn; intuition discriminate.
  - split; [exact I|]. intros fr E. change (op_compute parse0 pd_sort sum_x ["e"; "p"] (filter (pfilters parse0 []) (pandas_table data2)) = Some fr) in E. rewrite computed2 in E. injection E as <-. split.
    + intros k v Hi. cbn in Hi. repeat (destruct Hi as [E|Hi]; [injection E as <- <-; split; [discriminate|cbn; lra]|]). destruct Hi.
    + intros k k' v H1 H2 _. cbn in H1, H2.
      repeat (destruct H1 as [E|H1]; [injection E as <- <-; repeat (destruct H2 as [E|H2]; [injection E; intros; subst; try reflexivity; exfalso; lra|]); destruct H2|]). destruct H1.
Qed.
Example C62_case_diversity : forall d, d = HHI \/ d = Entropy \/ d = TopK 2 \/ d = Nxx (1 / 2) -> supported_tree ["e"] (tree3 d) /\
  leaves_fit parse0 (tree3 d) ["e"] data2 /\
  tree_fits parse0 pd_sort (tree3 d) ["e"] (pandas_table data2).
Proof.
  intros d Hd. split; [|split].
  - split; [destruct Hd as [->|[->|[->| ->]]]; intros [H|[]]; discriminate|]. split; [discriminate|]. split; [unfold sum_x; eauto|]. split; [intros [H|[]]; discriminate|].
    split; [intros [H|[H|[]]]; discriminate|]. repeat constructor; cbn; intuition discriminate.
  - destruct Hd as [->|[->|[->| ->]]]; intros mt ab lc bb [E|[]]; injection E as <- <- <- <-; exact leaf2.
  - split; [exact I|]. intros fr E. change (op_compute parse0 pd_sort sum_x ["e"; "p"] (filter (pfilters parse0 []) (pandas_table data2)) = Some fr) in E. rewrite computed2 in E. injection E as <-. split; [discriminate|]. split.
    + intros k v Hi. cbn in Hi. repeat (destruct Hi as [E|Hi]; [injection E as <- <-; split; [discriminate|cbn; lra]|]). destruct Hi.
    + destruct Hd as [->|[->|[->| ->]]]; try exact I; [|discriminate].
      intros k v Hi. cbn in Hi. repeat (destruct Hi as [E|Hi]; [injection E as <- <-; cbn; lra|]). destruct Hi.
Qed.

(** 2 * (Distribution("p", Sum("x")) * Sum("x")), split by e: the two sides have different index columns, so their queries
    are joined. *)
Definition tree4 := OConstL OpMul 2 (OBin OpMul (ODist ["p"] sum_x []) sum_x "share * sum" []) "twice" [].
Definition shares4 : rframe := [(["0"; "a"], Fin (1 / 4)); (["0"; "b"], Fin (3 / 4)); (["1"; "a"], Fin 1)].
Definition totals4 : rframe := [(["0"], Fin 4); (["1"], Fin 2)].
Lemma shared4 : op_compute parse0 pd_sort (ODist ["p"] sum_x []) ["e"] (filter (pfilters parse0 []) (filter (pfilters parse0 []) (pandas_table data2))) = Some shares4.
Proof.
  change (option_map (distribution 1) (op_compute parse0 pd_sort sum_x ["e"; "p"] (filter (pfilters parse0 []) (pandas_table data2))) = Some shares4).
  rewrite computed2. cbn -[Reqb]. compare. unfold shares4. frames.
Qed.
Lemma totalled4 : op_compute parse0 pd_sort sum_x ["e"] (filter (pfilters parse0 []) (filter (pfilters parse0 []) (pandas_table data2))) = Some totals4.
Proof. unfold totals4. cbn. frames. Qed.
Example C62_case_composite : exists rows, supported_tree ["e"] tree4 /\ leaves_fit parse0 tree4 ["e"] data2 /\ tree_fits parse0 pd_sort tree4 ["e"] (pandas_table data2) /\
  op_compute parse0 pd_sort tree4 ["e"] (pandas_table data2) = Some rows /\ rows = [(["0"; "a"], Fin 2); (["0"; "b"], Fin 6); (["1"; "a"], Fin 4)].
Proof.
  eexists. split; [|split; [|split; [|split]]].
  - cbn. repeat split; try discriminate; try (intros [H|[H|[]]]; discriminate); try (intros [H|[]]; discriminate); try (repeat constructor; cbn; intuition discriminate).
  - intros mt ab lc bb [E|[E|[]]]; injection E as <- <- <- <-; [exact leaf2|].
    apply (sum_leaf_fits parse0 []); [discriminate|intros []|intros f []| |].
    + intros r c Hr Hc. cbn in Hr, Hc. destruct Hc as [<-|[]]; repeat (destruct Hr as [<-|Hr]; [discriminate|]); destruct Hr.
    + intros r Hr. cbn in Hr. repeat (destruct Hr as [<-|Hr]; [discriminate|]); destruct Hr.
  - cbn [tree_fits tree4 sum_x]. fold sum_x. cbn zeta. split; [|intros fr _; discriminate]. split; [split; [exact I|]|split; [exact I|]].
    + intros fr E. change (op_compute parse0 pd_sort sum_x ["e"; "p"] (filter (pfilters parse0 []) (pandas_table data2)) = Some fr) in E. rewrite computed2 in E. injection E as <-.
      intros k v Hi. cbn in Hi. repeat (destruct Hi as [E|Hi]; [injection E as <- <-; cbn; lra|]). destruct Hi.
    + intros fa fb E1 E2. rewrite shared4 in E1. rewrite totalled4 in E2. injection E1 as <-. injection E2 as <-. split; [cbn; lia|]. split; [|discriminate].
      intros _ k Hk. cbn in Hk. destruct Hk as [<-|[<-|[]]]; eexists; (split; [cbn; left; reflexivity|reflexivity]) || (split; [cbn; right; right; left; reflexivity|reflexivity]).
  - unfold tree4. remember (ODist ["p"] sum_x []) as a eqn:Ea. remember sum_x as b eqn:Eb. cbn [op_compute]. subst a b. rewrite shared4, totalled4. cbn. reflexivity.
  - frames.
Qed.

(** ** Where they differ *)
Definition cell2 (p : option string) (x : option R) : srow := SRow (fun _ => p) (fun _ => x).
(** The baseline is 0: inf in pandas, NULL in SQL. *)
Theorem C62_zero_baseline_refuted : forall srt psort, exists t, let m := OChange true ["p"] ["a"] false sum_x [] in
  op_compute parse0 psort m [] (pandas_table t) = Some [(["b"], PInf)] /\
  shown ["p"] (value_name m) (run_sql parse0 srt (op_to_sql m []) t) = [([Some "b"], NaN)].
Proof.
  intros. exists [cell2 (Some "a") (Some 0%R); cell2 (Some "b") (Some 1%R)]. cbn zeta. split.
  - cbn. compare. unfold inf_times. compare. cbn. unfold inf_times. compare. reflexivity.
  - cbn -[Reqb run_query]. unfold run_query. cbn -[Reqb]. compare. reflexivity.
Qed.
(** A slice without the baseline: a row with NaN in pandas, no row in SQL. *)
Theorem C62_missing_baseline_refuted : forall srt psort, exists t, let m := OChange false ["p"] ["a"] false sum_x [] in
  op_compute parse0 psort m ["e"] (pandas_table t) = Some [(["0"; "b"], Fin 1); (["1"; "b"], NaN)] /\
  shown ["e"; "p"] (value_name m) (run_sql parse0 srt (op_to_sql m ["e"]) t) = [([Some "0"; Some "b"], Fin 1)].
Proof.
  intros. exists [cell3 (Some "0") (Some "a") (Some 1%R); cell3 (Some "0") (Some "b") (Some 2%R); cell3 (Some "1") (Some "b") (Some 3%R)]. cbn zeta. split.
  - cbn. frames.
  - cbn -[Reqb run_query]. unfold run_query. cbn -[Reqb]. frames.
Qed.
(** A NULL in the column of a distribution: its share is part of the total in SQL only. *)
Theorem C62_null_label_refuted : forall srt psort, exists t, let m := ODist ["p"] sum_x [] in
  op_compute parse0 psort m [] (pandas_table t) = Some [(["a"], Fin 1)] /\
  shown ["p"] (value_name m) (run_sql parse0 srt (op_to_sql m []) t) = [([Some "a"], Fin (1 / 2)); ([None], Fin (1 / 2))].
Proof.
  intros. exists [cell2 (Some "a") (Some 1%R); cell2 None (Some 1%R)]. cbn zeta. split.
  - cbn. compare. frames.
  - cbn -[Reqb run_query]. unfold run_query. cbn -[Reqb]. compare. cbn. frames.
Qed.
Ltac run := lazy -[Rplus Rminus Rmult Rdiv Rinv Ropp IZR Reqb Rltb].
(** [order] does not list every value: pandas drops the others, SQL puts them last. *)
Theorem C62_incomplete_order_refuted : exists t, let m := OCum ["p"] (CumOrder ["a"]) true sum_x [] in
  op_compute parse0 pd_sort m [] (pandas_table t) = Some [(["a"], Fin (1 / 2))] /\
  shown ["p"] (value_name m) (run_sql parse0 db_sort (op_to_sql m []) t) = [([Some "a"], Fin (1 / 2)); ([Some "b"], Fin 1)].
Proof.
  intros. exists [cell2 (Some "a") (Some 1%R); cell2 (Some "b") (Some 1%R)]. cbn zeta. split.
  - cbn. compare. cbn. frames.
  - run. compare. run. frames.
Qed.
(** A missing value stays missing in a cumulative distribution in pandas; in SQL it gets the sum so far. *)
Theorem C62_null_value_refuted : exists t, let m := OCum ["p"] CumOver true (OLeaf (MLeaf (Lf (LMean (Col "x") None)) []) "mean(x)") [] in
  op_compute parse0 pd_sort m [] (pandas_table t) = Some [(["a"], Fin 1); (["b"], NaN)] /\
  shown ["p"] (value_name m) (run_sql parse0 db_sort (op_to_sql m []) t) = [([Some "a"], Fin 1); ([Some "b"], Fin 1)].
Proof.
  intros. exists [cell2 (Some "a") (Some 1%R); cell2 (Some "b") None]. cbn zeta. split.
  - run. compare. run. compare. run. frames.
  - run. compare. run. frames.
Qed.
(** Ties in a cumulative distribution sorted by its values: the result depends on the database. *)
Theorem C62_ties_refuted : exists t, let m := OCum ["p"] CumValues true sum_x [] in
  db_sorts db_sort /\ db_sorts db_sort_rev /\
  shown ["p"] (value_name m) (run_sql parse0 db_sort (op_to_sql m []) t) = [([Some "a"], Fin (1 / 2)); ([Some "b"], Fin 1)] /\
  shown ["p"] (value_name m) (run_sql parse0 db_sort_rev (op_to_sql m []) t) = [([Some "b"], Fin (1 / 2)); ([Some "a"], Fin 1)].
Proof.
  exists [cell2 (Some "a") (Some 1%R); cell2 (Some "b") (Some 1%R)]. split; [exact db_sort_sorts|]. split; [exact db_sort_rev_sorts|]. split.
  - run. compare. run. compare. run. frames.
  - run. compare. run. compare. run. frames.
Qed.

(** Where the query is not what it should be. *)
(** Distribution of a comparison: "cond" is taken for a value, so it is divided and is no longer a column. *)
Theorem C63_distribution_of_comparison_refuted : let m := ODist ["p"] (OChange true ["cond"] ["0"] false sum_x []) [] in
  extra_idx m = ["p"; "cond"] /\
  all_columns (op_to_sql m []) = ["p"; "Distribution of cond"; "Distribution of sum(x) Percent Change"].
Proof. split; reflexivity. Qed.
(** HHI of an HHI: the query mentions a column that its source does not have. *)
Theorem C63_nested_diversity_refuted : well_scoped (op_to_sql (ODiv HHI ["p"] (ODiv HHI ["q"] sum_x []) []) []) = false.
Proof. reflexivity. Qed.
(** Arithmetic on operations with different index columns: all queries are generated with the index columns of the whole
    tree.  HHI is then grouped by the columns it sums over, so that it is the square of a single share ... *)
Theorem C62_diversity_in_composite_refuted : exists t, let m := OBin OpMul (ODist ["p"] sum_x []) (ODiv HHI ["p"] sum_x []) "m" [] in
  op_compute parse0 pd_sort m [] (pandas_table t) = Some [(["a"], Fin (1 / 4 * (10 / 16))); (["b"], Fin (3 / 4 * (10 / 16)))] /\
  shown ["p"] (value_name m) (run_sql parse0 db_sort (op_to_sql m []) t) = [([Some "a"], Fin (1 / 4 * (1 / 16))); ([Some "b"], Fin (3 / 4 * (9 / 16)))].
Proof.
  exists [cell2 (Some "a") (Some 1%R); cell2 (Some "b") (Some 3%R)]. cbn zeta. split.
  - run. compare. run. frames.
  - assert (forall A (a b : A), a <> b -> same a b = false) as HN by (intros A a b; apply same_neq).
    match goal with |- shown _ _ (run_sql _ _ ?q _) = _ => assert (exists q', q' = q) as [q' Eq] by eauto; rewrite <- Eq end. lazy -[same] in Eq. rewrite HN in Eq by discriminate. cbn [andb] in Eq. subst q'.
    run. compare. run. compare. run. frames.
Qed.
(** ... a comparison selects a column that its source does not have ... *)
Theorem C63_comparison_in_composite_refuted :
  well_scoped (op_to_sql (OBin OpMul (OChange false ["e"] ["0"] false (ODist ["p"] sum_x []) []) (OChange false ["e"] ["0"] false sum_x []) "m" []) []) = false.
Proof.
  match goal with |- well_scoped ?q = _ => assert (exists q', q' = q) as [q' Eq] by eauto; rewrite <- Eq end. lazy -[same] in Eq.
  repeat match type of Eq with context[same ?a ?b] => rewrite (same_neq a b) in Eq by discriminate end. cbn [andb] in Eq. subst q'. vm_compute. reflexivity.
Qed.
(** ... and two operations with fewer index columns are joined on columns that they do not have. *)
Theorem C63_composite_in_composite_refuted :
  well_scoped (op_to_sql (OBin OpMul (ODist ["e"; "p"] sum_x []) (OBin OpAdd (ODist ["e"] sum_x []) (ODist ["e"] (OLeaf (MLeaf (Lf (LMean (Col "x") None)) []) "mean(x)") []) "i" []) "m" []) []) = false.
Proof.
  match goal with |- well_scoped ?q = _ => assert (exists q', q' = q) as [q' Eq] by eauto; rewrite <- Eq end. lazy -[same] in Eq.
  repeat match type of Eq with context[same ?a ?b] => rewrite (same_neq a b) in Eq by discriminate end. cbn [andb] in Eq. subst q'. vm_compute. reflexivity.
Qed.
