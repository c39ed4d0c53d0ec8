(** C67: compute_on_sql(mode='mixed') gives exactly what compute_on gives on the same data. *)
From Coq Require Import Reals List Bool String Permutation Lia Lra.
From Verif Require Import M_Num M_Frame L_Frame M_Ops S_Ops M_Leaf M_SqlGlobal M_SqlLeaf S_SqlLeaf L_SqlLeaf L_SqlLeaf2 M_SqlOps S_SqlOps L_SqlSort M_SqlList S_SqlList M_SqlMH S_SqlMH M_SqlMixed S_SqlMixed L_SqlMixed P_SqlOps P_SqlList P_SqlMH.
Import ListNotations.
Open Scope string_scope.
Open Scope list_scope.

(** [m]: any tree of operations and arithmetic on metrics, each with its filters (no restriction on how they are nested, on names or
    on columns); any table on which the leaf metrics agree (C16); any order in which the database returns rows; any sort.  The
    results have the same rows in the same order, or both computations raise. *)
Theorem C67_mixed_mode : forall parse dbo psort m split_by t,
  some_order dbo -> mixed_fits parse m [] split_by t ->
  mixed parse dbo psort m split_by t = op_compute parse psort m split_by (pandas_table t).
Proof. intros parse dbo psort m s t Hd H. pose proof (tree_equal parse dbo psort Hd m [] s t H) as E. now rewrite !sub_nil in E. Qed.
Print Assumptions C67_mixed_mode.

(** A MetricList, when no metric of it raises. *)
Theorem C67_mixed_list : forall parse dbo psort l split_by t,
  some_order dbo -> (forall m, In m (ml_children l) -> mixed_fits parse m (ml_where l) split_by t) ->
  (forall m, In m (ml_children l) -> op_compute parse psort m split_by (filter (pfilters parse (ml_where l)) (pandas_table t)) <> None) ->
  mixed_list parse dbo psort l split_by t = Some (list_compute parse psort l split_by (pandas_table t)).
Proof.
  intros parse dbo psort [ms w] s t Hd Hf Hn. cbn [ml_children ml_where] in *. unfold mixed_list, list_compute. cbn [ml_children ml_where]. cbv zeta.
  assert (forall m, In m ms -> mixed parse dbo psort m s (sub_table parse w t) = op_compute parse psort m s (filter (pfilters parse w) (pandas_table t))) as HE.
  { intros m Hm. rewrite (tree_equal parse dbo psort Hd m w s t (Hf m Hm)). f_equal. rewrite <- (sub_nil parse t) at 2. symmetry. apply (tree_filter parse m [] w s t). now apply Hf. }
  set (df := filter (pfilters parse w) (pandas_table t)) in *.
  assert (forall ms', incl ms' ms ->
    existsb (fun r => match r with None => true | Some _ => false end) (List.map (fun m => option_map (pair (value_name m)) (mixed parse dbo psort m s (sub_table parse w t))) ms') = false /\
    flat_map (fun r => match r with Some x => [x] | None => [] end) (List.map (fun m => option_map (pair (value_name m)) (mixed parse dbo psort m s (sub_table parse w t))) ms') =
    flat_map (fun m => match op_compute parse psort m s df with Some fr => [(value_name m, fr)] | None => [] end) ms') as HH.
  { induction ms' as [|m ms' IH]; intros Hi; [split; reflexivity|]. destruct IH as [I1 I2]; [intros x Hx; apply Hi; now right|].
    assert (In m ms) as Hm by (apply Hi; now left). cbn [List.map existsb flat_map]. rewrite I1, I2, (HE m Hm).
    destruct (op_compute parse psort m s df) as [fr|] eqn:E; [split; reflexivity|]. now destruct (Hn m Hm). }
  destruct (HH ms (fun x H => H)) as [H1 H2]. rewrite H1, H2. reflexivity.
Qed.
Print Assumptions C67_mixed_list.

(** MH, also when the baseline is missing or a denominator is zero. *)
Theorem C67_mixed_mh : forall parse dbo psort x split_by t,
  some_order dbo -> mixed_fits parse (mh_numer x) (mh_where x ++ mh_child_where x) (mh_by x split_by) t -> mixed_fits parse (mh_denom x) (mh_where x ++ mh_child_where x) (mh_by x split_by) t ->
  mixed_mh parse dbo psort x split_by t = mh_pandas parse psort x split_by (pandas_table t).
Proof.
  intros parse dbo psort x s t Hd Ha Hb. unfold mixed_mh, mh_pandas, mh_children. cbv zeta.
  rewrite sub_sub, (tree_equal parse dbo psort Hd _ _ _ t Ha), (tree_equal parse dbo psort Hd _ _ _ t Hb).
  assert (filter (pfilters parse (mh_child_where x)) (filter (pfilters parse (mh_where x)) (pandas_table t)) = pandas_table (sub_table parse (mh_where x ++ mh_child_where x) t)) as ->.
  { rewrite filter_pfilters_app. rewrite <- (sub_nil parse t) at 1. now apply (tree_filter parse (mh_numer x) [] _ (mh_by x s) t). }
  destruct (op_compute parse psort (mh_numer x) _ _) as [a|]; [|reflexivity]. destruct (op_compute parse psort (mh_denom x) _ _) as [b|]; reflexivity.
Qed.
Print Assumptions C67_mixed_mh.

(** The two modes give the same rows where the default mode agrees with pandas (C62). *)
Theorem C67_both_modes : forall parse dbo srt psort m split_by t,
  some_order dbo -> db_sorts srt -> pandas_sorts psort -> supported_tree split_by m ->
  leaves_fit parse m split_by t -> tree_fits parse psort m split_by (pandas_table t) -> mixed_fits parse m [] split_by t ->
  exists result, mixed parse dbo psort m split_by t = Some result /\
    same_rows (shown (split_by ++ extra_idx m) (value_name m) (run_sql parse srt (op_to_sql m split_by) t)) result.
Proof.
  intros parse dbo srt psort m s t H0 H1 H2 H3 H4 H5 H6. rewrite (C67_mixed_mode parse dbo psort m s t H0 H6). now apply C62_same_rows.
Qed.

(** ** Cases *)
Definition db_rev (q : query) (l : list (skey * option R)) := rev l.
Lemma db_rev_order : some_order db_rev. Proof. intros q l. symmetry. apply Permutation_rev. Qed.
(** A Sum over a column without NULLs. *)
Lemma sum_mixed_fits parse c above w by_ t : by_ <> [] -> ~ In "" (above ++ w) -> (forall f, In f (above ++ w) -> positive (parse f)) ->
  (forall r c, In r t -> In c by_ -> slab r c <> None) -> (forall r, In r t -> snum r c <> None) -> mixed_leaf_fits parse t (Lf (LSum (Col c)), above, w, by_).
Proof.
  intros Hb He Hp Hl Hx. repeat split; auto.
  - intros f r Hf _. apply positive_same. auto.
  - destruct H as [[H _]|H]; [contradiction|]. apply used_nonempty in H as (r & Hr & Hs & Hk). exists r. split; [|now apply Hx].
    unfold used_rows. apply filter_In. split; [exact Hr|]. rewrite Hs, Hk. cbn. now destruct (skey_dec _ _).
Qed.
(** The case of C62, AbsoluteChange of a Distribution: the database returns the groups in the opposite order. *)
Example C67_case : mixed_fits parse0 tree1 [] [] data /\
  mixed parse0 db_rev pd_sort tree1 [] data = Some [(["1"; "a"], Fin (1 / 4)); (["1"; "b"], Fin (- 1 / 4))].
Proof.
  assert (mixed_fits parse0 tree1 [] [] data) as HF.
  { intros x [<-|[]]. apply (sum_mixed_fits parse0 "x" ["x > 0"] []); [discriminate|intros [H|[]]; discriminate|intros; cbn; discriminate| |].
    - intros r c Hr Hc. cbn in Hr, Hc. destruct Hc as [<-|[<-|[]]]; repeat (destruct Hr as [<-|Hr]; [discriminate|]); destruct Hr.
    - intros r Hr. cbn in Hr. repeat (destruct Hr as [<-|Hr]; [discriminate|]); destruct Hr. }
  split; [exact HF|]. rewrite (C67_mixed_mode parse0 db_rev pd_sort tree1 [] data db_rev_order HF).
  destruct C62_case as (rows & _ & _ & _ & _ & _ & E & ->). exact E.
Qed.
(** A baseline of zero: mixed mode gives infinity like pandas, the query of the default mode gives NULL (C62_zero_baseline_refuted). *)
Example C67_zero_baseline : let m := OChange true ["p"] ["a"] false sum_x [] in let t := [cell2 (Some "a") (Some 0%R); cell2 (Some "b") (Some 1%R)] in
  mixed_fits parse0 m [] [] t /\ mixed parse0 db_rev pd_sort m [] t = Some [(["b"], PInf)] /\
  shown ["p"] (value_name m) (run_sql parse0 db_sort (op_to_sql m []) t) = [([Some "b"], NaN)].
Proof.
  cbv zeta. match goal with |- mixed_fits _ ?m _ _ ?t /\ _ => assert (mixed_fits parse0 m [] [] t) as HF end.
  { intros x [<-|[]]. apply (sum_mixed_fits parse0 "x" [] []); [discriminate|intros []|intros f []| |].
    - intros r c Hr _. destruct Hr as [<-|[<-|[]]]; discriminate.
    - intros r Hr. destruct Hr as [<-|[<-|[]]]; discriminate. }
  split; [exact HF|]. split.
  - rewrite (C67_mixed_mode _ _ _ _ _ _ db_rev_order HF). cbn. compare. unfold inf_times. compare. cbn. unfold inf_times. compare. reflexivity.
  - cbn -[Reqb run_query]. unfold run_query. cbn -[Reqb]. compare. reflexivity.
Qed.
(** MH and a list. *)
Example C67_case_mh : mixed_mh parse0 db_rev pd_sort (mh1 false) [] dataxy = Some [(["1"], Fin 50)].
Proof.
  assert (forall r, In r dataxy -> (forall c, slab r c <> None) /\ (forall c, snum r c <> None)) as HD.
  { intros r Hr. unfold dataxy in Hr. cbn [In] in Hr. repeat (destruct Hr as [<-|Hr]; [split; discriminate|]). destruct Hr. }
  rewrite (C67_mixed_mh parse0 db_rev pd_sort (mh1 false) [] dataxy db_rev_order); [exact result_mh| |]; intros x [<-|[]].
  - apply (sum_mixed_fits parse0 "x" ["x > 0"] []); [discriminate|intros [H|[]]; discriminate|intros; cbn; discriminate|intros r c Hr _; now apply HD|intros r Hr; now apply HD].
  - apply (sum_mixed_fits parse0 "y" ["x > 0"] []); [discriminate|intros [H|[]]; discriminate|intros; cbn; discriminate|intros r c Hr _; now apply HD|intros r Hr; now apply HD].
Qed.
(** ** Where they differ *)
(** A metric of a MetricList raises (its baseline does not occur): compute_on prints a warning and returns the others, mixed mode raises. *)
Theorem C67_failing_child_refuted : let l := MList [sum_x; OChange false ["p"] ["z"] false sum_x []] [] in let t := [cell2 (Some "a") (Some 1%R)] in
  (forall m, In m (ml_children l) -> mixed_fits parse0 m (ml_where l) ["e"] t) /\
  mixed_list parse0 db_rev pd_sort l ["e"] t = None /\
  list_compute parse0 pd_sort l ["e"] (pandas_table t) = (["sum(x)"], [(["a"], [Fin 1])]).
Proof.
  cbv zeta. assert (forall by_, by_ <> [] -> mixed_leaf_fits parse0 [cell2 (Some "a") (Some 1%R)] (Lf (LSum (Col "x")), [], [], by_)) as HL.
  { intros by_ Hb. apply (sum_mixed_fits parse0 "x" [] []); [exact Hb|intros []|intros f []| |].
    - intros r c Hr _. destruct Hr as [<-|[]]; discriminate.
    - intros r Hr. destruct Hr as [<-|[]]; discriminate. }
  split; [intros m [<-|[<-|[]]] x [<-|[]]; apply HL; discriminate|]. split.
  - reflexivity.
  - cbn. frames.
Qed.
(** A group where the summed column is NULL: 0 in pandas, NaN in mixed mode. *)
Theorem C67_sum_of_nulls_refuted : let t := [cell2 (Some "a") None] in
  op_compute parse0 pd_sort sum_x ["p"] (pandas_table t) = Some [(["a"], Fin 0)] /\
  mixed parse0 db_rev pd_sort sum_x ["p"] t = Some [(["a"], NaN)].
Proof. cbv zeta. split; [cbn; frames|reflexivity]. Qed.
