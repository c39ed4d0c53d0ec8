(** C16: the generated SQL and pandas agree on leaf metrics and arithmetic on them. *)
From Coq Require Import Reals List Bool String ZArith Lia Lra.
From Verif Require Import M_Num M_Frame M_Leaf S_Leaf L_Leaf M_SqlGlobal M_SqlLeaf S_SqlLeaf L_SqlLeaf L_SqlLeaf2.
Import ListNotations.
Open Scope string_scope.
Open Scope list_scope.
Open Scope R_scope.

(** ** Filters *)
(** A condition without negation selects the same rows in SQL and in pandas, NULLs or not. *)
Theorem C16_positive_conditions : forall p r, positive p -> same_verdict p r.
Proof. exact positive_same. Qed.
(** So does every condition on rows where the columns it mentions are known. *)
Theorem C16_conditions_on_known_values : forall p r, known p r -> same_verdict p r.
Proof. exact known_same. Qed.
(** Negation and != keep rows with NULL in pandas and drop them in SQL. *)
Theorem C16_negation_refuted : exists r,
  (ptest (CNum (OCol "x") CNe (ONum 1)) (pandas_row r) = true /\ stest (CNum (OCol "x") CNe (ONum 1)) r = None) /\
  (ptest (CNot (CNum (OCol "x") CGt (ONum 1))) (pandas_row r) = true /\ stest (CNot (CNum (OCol "x") CGt (ONum 1))) r = None) /\
  (ptest (CIsNot "p" "a") (pandas_row r) = true /\ stest (CIsNot "p" "a") r = None).
Proof. exists (SRow (fun _ => None) (fun _ => None)). repeat split. Qed.

(** ** Values *)
(** [m] is any arithmetic on supported leaf metrics, each with its filters; [k] a group of the split.
    If every leaf has rows in the group, no sum is over NULLs only and nothing but 0 is divided by 0,
    SQL and pandas have a row for the group with the same value. *)
Theorem C16_same_value : forall parse (t : stable) (m : metric) split_by k,
  let q := to_sql m split_by in
  (forall l fs, In (l, fs) (leaves_with_filters [] m) ->
     supported l /\ ~ In "" fs /\
     (forall f r, In f fs -> In r t -> same_verdict (parse f) r) /\
     ((split_by = [] /\ k = []) \/ used_rows parse split_by k fs t <> []) /\
     cov_same_nulls l (used_rows parse split_by k fs t)) ->
  fits parse (q_col q) (group split_by (List.map Some k) (filter (spass parse (q_where q)) t)) ->
  exists v, In (List.map Some k, v) (run_query parse q t) /\
            In (k, fetch v) (compute parse m split_by (pandas_table t)).
Proof. intros parse t m by_ k. exact (values_agree parse t m by_ k). Qed.
Print Assumptions C16_same_value.
(** There is one row per group on both sides, so the values above are the values. *)
Theorem C16_one_row_per_group : forall parse t m split_by,
  NoDup (List.map fst (run_query parse (to_sql m split_by) t)) /\ NoDup (List.map fst (compute parse m split_by (pandas_table t))).
Proof. intros. split; [apply run_NoDup|apply compute_NoDup]. Qed.
(** For a single leaf metric the whole results are equal, when the group labels are not NULL. *)
Theorem C16_whole_result : forall parse t l w split_by,
  supported l -> ~ In "" w ->
  (forall f r, In f w -> In r t -> same_verdict (parse f) r) ->
  (forall r c, In r t -> spass parse w r = true -> In c split_by -> slab r c <> None) ->
  (forall k, (split_by = [] /\ k = []) \/ used_rows parse split_by k w t <> [] ->
     fits parse (q_col (to_sql (MLeaf l w) split_by)) (used_rows parse split_by k w t) /\ cov_same_nulls l (used_rows parse split_by k w t)) ->
  (forall k v, In (k, v) (compute parse (MLeaf l w) split_by (pandas_table t)) <->
               exists u, v = fetch u /\ In (List.map Some k, u) (run_query parse (to_sql (MLeaf l w) split_by) t)) /\
  (forall sk u, In (sk, u) (run_query parse (to_sql (MLeaf l w) split_by) t) -> exists k, sk = List.map Some k).
Proof. exact leaf_whole. Qed.
Print Assumptions C16_whole_result.
(** [fits] is no restriction for Count, Mean, Max, Min, Variance, StandardDeviation, Cov with ddof 0 or 1,
    Correlation and Count(distinct), and only asks for one value that is not NULL in Sum and Dot. *)
Theorem C16_always_fits : forall parse rows l, 
  match l with
  | Lf (LCount _) | Lf (LMean _ None) | Lf (LDot _ _ true) | Lf (LVar _ _ None) | Lf (LSD _ _ None) | Lf (LCorr _ _ None)
  | Lf (LCov _ _ 0%Z None None) | Lf (LCov _ _ 1%Z None None) | LMax _ | LMin _ | LDistinct _ => True
  | _ => False
  end -> fits parse (sql_leaf l []) rows.
Proof.
  intros parse rows [m|v|v|v]; try exact (fun _ => I).
  destruct m as [c|c|a b [|]|c [w|]|c d [w|]|c d [w|]|c d|a b d [w|] [f|]|a b [w|]|agg]; try contradiction; try exact (fun _ => I);
  try (intros _; cbn; now destruct (Z.eqb d 1)); destruct d as [|[p|p|]|p]; try contradiction; exact (fun _ => I).
Qed.
Theorem C16_sum_fits : forall parse rows a b, (exists r, In r rows /\ scell a r <> None) ->
  fits parse (sql_leaf (Lf (LSum a)) []) rows /\
  ((exists r, In r rows /\ scell a r <> None /\ scell b r <> None) -> fits parse (sql_leaf (Lf (LDot a b false)) []) rows).
Proof.
  intros parse rows a b H. split; [exact H|]. intros (r & Hr & H1 & H2). exists r. split; [exact Hr|]. cbn.
  destruct (scell a r), (scell b r); cbn; congruence.
Qed.

(** ** Where they differ *)
Definition row (p : option string) (x y : option R) : srow :=
  SRow (fun _ => p) (fun c => if string_dec c "x" then x else y).
Definition parse1 (f : string) : cond := CNum (OCol "y") CGt (ONum 0).
(** The sum of nothing is 0 in pandas, NULL in SQL: a filter that no row passes, or NULLs only. *)
Theorem C16_empty_sum_refuted :
  (exists t, run_query parse1 (to_sql (MLeaf (Lf (LSum (Col "x"))) ["y > 0"]) []) t = [([], None)] /\
             compute parse1 (MLeaf (Lf (LSum (Col "x"))) ["y > 0"]) [] (pandas_table t) = [([], Fin 0)]) /\
  (exists t, run_query parse1 (to_sql (MLeaf (Lf (LSum (Col "x"))) []) ["p"]) t = [([Some "a"], None)] /\
             compute parse1 (MLeaf (Lf (LSum (Col "x"))) []) ["p"] (pandas_table t) = [(["a"], Fin 0)]).
Proof. split; [exists []|exists [row (Some "a") None (Some 1)]]; split; reflexivity. Qed.
(** x / 0 is inf in pandas and NULL in SQL. *)
Theorem C16_division_by_zero_refuted : exists t,
  let m := MOp OpDiv (MLeaf (Lf (LSum (Col "x"))) []) (MLeaf (Lf (LSum (Col "y"))) []) [] in
  run_query parse1 (to_sql m []) t = [([], None)] /\ compute parse1 m [] (pandas_table t) = [([], PInf)].
Proof.
  exists [row None (Some 1) (Some 0)]. split.
  - unfold run_query. cbn -[Reqb sexpr_value]. do 2 f_equal. cbn -[Reqb]. unfold Reqb. destruct (Req_EM_T (0 + 0) 0); [reflexivity|lra].
  - cbn -[xdiv]. do 2 f_equal. cbn. destruct (Req_EM_T (0 + 0) 0); [|lra]. unfold inf_times. destruct (Req_EM_T (1 + 0) 0); [lra|].
    destruct (Rlt_dec (1 + 0) 0); [lra|reflexivity].
Qed.
(** A group in which no row passes the filter of one leaf: Count(x where y > 0) + Count(x) is missing in
    pandas, a number in SQL. *)
Theorem C16_leaf_without_rows_refuted : exists t,
  let m := MOp OpAdd (MLeaf (Lf (LCount (Col "x"))) ["y > 0"]) (MLeaf (Lf (LCount (Col "x"))) []) [] in
  run_query parse1 (to_sql m ["p"]) t = [([Some "a"], Some 1)] /\ compute parse1 m ["p"] (pandas_table t) = [(["a"], NaN)].
Proof.
  exists [row (Some "a") (Some 1) (Some 0)]. unfold run_query. cbn -[Rltb]. unfold Rltb.
  destruct (Rlt_dec 0 0) as [H|H]; [lra|]. cbn. split; [|reflexivity]. do 2 f_equal. rewrite spass_forallb. cbn -[Rltb]. unfold Rltb. destruct (Rlt_dec 0 0) as [H1|_]; [lra|]. cbn. f_equal. lra.
Qed.
(** A NULL label is a group in SQL and dropped in pandas. *)
Theorem C16_null_label_refuted : exists t,
  run_query parse1 (to_sql (MLeaf (Lf (LCount (Col "x"))) []) ["p"]) t = [([None], Some 1)] /\
  compute parse1 (MLeaf (Lf (LCount (Col "x"))) []) ["p"] (pandas_table t) = [].
Proof. exists [row None (Some 1) None]. split; reflexivity. Qed.
(** Cov of columns with NULLs in different rows: COVAR_POP uses complete pairs only. *)
Theorem C16_cov_refuted : exists t u v,
  run_query parse1 (to_sql (MLeaf (Lf (LCov (Col "x") (Col "y") 0 None None)) []) []) t = [([], Some u)] /\
  compute parse1 (MLeaf (Lf (LCov (Col "x") (Col "y") 0 None None)) []) [] (pandas_table t) = [([], Fin v)] /\ u <> v.
Proof.
  exists [row None (Some 1) (Some 2); row None (Some 3) (Some 4); row None (Some 5) None].
  eexists. eexists. split; [|split].
  - unfold run_query. cbn. unfold unless_fewer. cbn. reflexivity.
  - cbn [compute]. unfold compute_leaf. cbn [group_keys List.map]. do 2 f_equal.
    cbn [pandas_leaf]. unfold leaf_value. cbn [native]. rewrite V_expanded. erewrite V_leaf by reflexivity. unfold cov_equivalent. cbn [Z.eqb].
    rewrite !V_sub, !V_mul, !V_dotn, !V_mean. unfold xmean, col_of, count_present, xsum. cbn -[xdiv]. rewrite !xdiv_fin by lra. rewrite !xmul_fin, !xsub_fin. reflexivity.
  - unfold codev, avg. cbn. lra.
Qed.
Print Assumptions C16_cov_refuted.

(** Two groups; Sum(x where y > 0) / Count(x): the premises of C16_same_value and the values. *)
Definition ex_t := [row (Some "b") (Some 4) (Some 1); row (Some "a") (Some 1) (Some 2); row (Some "b") None (Some 5); row (Some "b") (Some 6) (Some (-1))].
Definition ex_m := MOp OpDiv (MLeaf (Lf (LSum (Col "x"))) ["y > 0"]) (MLeaf (Lf (LCount (Col "x"))) []) [].
Example C16_example :
  let q := to_sql ex_m ["p"] in
  (forall l fs, In (l, fs) (leaves_with_filters [] ex_m) ->
     supported l /\ ~ In "" fs /\
     (forall f r, In f fs -> In r ex_t -> same_verdict (parse1 f) r) /\
     ((["p"] = [] /\ ["b"] = []) \/ used_rows parse1 ["p"] ["b"] fs ex_t <> []) /\
     cov_same_nulls l (used_rows parse1 ["p"] ["b"] fs ex_t)) /\
  fits parse1 (q_col q) (group ["p"] [Some "b"] (filter (spass parse1 (q_where q)) ex_t)) /\
  q_col q = XDiv (XAgg (SUM (AIf ["y > 0"] (Col "x")))) (XAgg (COUNT (AIf [] (Col "x")))) /\
  In ([Some "b"], Some 2) (run_query parse1 q ex_t).
Proof.
  assert (forall f fs r, spass parse1 (f :: fs) r = (istrue (stest (parse1 f) r) && spass parse1 fs r)%bool) as HS.
  { intros f fs r. now rewrite !spass_forallb. }
  assert (forall y x p, stest (parse1 "y > 0") (row p x (Some y)) = Some (Rltb 0 y)) as HT by reflexivity.
  assert (Rltb 0 1 = true /\ Rltb 0 2 = true /\ Rltb 0 5 = true /\ Rltb 0 (-1) = false) as (E1 & E2 & E3 & E4).
  { unfold Rltb. repeat split; destruct (Rlt_dec _ _); try reflexivity; lra. }
  intros q. split; [|split; [|split; [reflexivity|]]].
  - intros l fs [E|[E|[]]]; injection E as <- <-.
    + split; [exact I|]. split; [intros [H|[]]; discriminate|]. split; [intros f r _ _; apply positive_same; discriminate|]. split; [|exact I].
      right. apply (used_nonempty parse1). exists (row (Some "b") (Some 4) (Some 1)). split; [cbn; auto|]. split; [|reflexivity].
      cbn [app]. rewrite HS. change (stest (parse1 "y > 0") (row (Some "b") (Some 4) (Some 1))) with (Some (Rltb 0 1)). rewrite E1. reflexivity.
    + split; [exact I|]. split; [intros []|]. split; [intros f r []|]. split; [|exact I]. right. discriminate.
  - cbn [q to_sql q_col q_where]. cbn -[Rltb sexpr_value group spass]. split; [|split; [exact I|]].
    + exists (row (Some "b") (Some 4) (Some 1)). split; [cbn; auto|]. rewrite HS. change (stest (parse1 "y > 0") (row (Some "b") (Some 4) (Some 1))) with (Some (Rltb 0 1)).
      rewrite E1. cbn. discriminate.
    + cbn -[Rltb]. intros H. injection H as H. lra.
  - assert (forall y x p, spass parse1 ["y > 0"] (row p x (Some y)) = Rltb 0 y) as HP.
    { intros y x p. rewrite HS. change (stest (parse1 "y > 0") (row p x (Some y))) with (Some (Rltb 0 y)). now destruct (Rltb 0 y). }
    assert (group ["p"] [Some "b"] (filter (spass parse1 (q_where q)) ex_t) =
            [row (Some "b") (Some 4) (Some 1); row (Some "b") None (Some 5); row (Some "b") (Some 6) (Some (-1))]) as EG by reflexivity.
    assert (In [Some "b"] (nodup skey_dec (List.map (srow_key ["p"]) (filter (spass parse1 (q_where q)) ex_t)))) as HI
      by (apply nodup_In; cbn; auto).
    apply (in_map (fun k => (k, sexpr_value parse1 (q_col q) (group ["p"] k (filter (spass parse1 (q_where q)) ex_t))))) in HI.
    rewrite EG in HI. replace (sexpr_value parse1 (q_col q) [row (Some "b") (Some 4) (Some 1); row (Some "b") None (Some 5); row (Some "b") (Some 6) (Some (-1))]) with (Some 2) in HI; [exact HI|].
    cbn [q to_sql q_col ex_m sql_column sql_op]. unfold sql_leaf. cbn [sql_columns sexpr_value sagg_value].
    unfold inputs. cbn [List.map sarg]. change (remove (add (add [] ["y > 0"]) _) _) with ["y > 0"]. rewrite !HP, E1, E3, E4. cbn -[Reqb].
    unfold Reqb. destruct (Req_EM_T (1 + 1) 0); [lra|]. cbn. f_equal. field.
Qed.
