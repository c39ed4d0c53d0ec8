(** C22 for trees of operations: slices are independent, also with arithmetic between metrics of different index levels. *)
From Coq Require Import Reals List Bool String Arith Lia Lra Permutation.
From Verif Require Import M_Num M_Frame M_Leaf M_Ops M_Slices S_Slices L_Slices L_Slices2 L_OpsC M_SqlGlobal M_SqlLeaf S_SqlLeaf M_SqlOps S_SliceTree L_SliceTree P_SqlOps.
Import ListNotations.
Open Scope string_scope.
Open Scope list_scope.

(** [m]: any tree of Distribution, CumulativeDistribution, PercentChange, AbsoluteChange, HHI, Entropy, TopK, Nxx and arithmetic (operands
    may have different index columns) over leaf metrics, with filters anywhere; CumulativeDistribution sorts stably by any
    total preorder.  If the metric gives [alone] on the rows of the slice [k], then the rows of the slice in the result of the whole table, whatever
    the other slices hold, are [alone]. *)
Theorem C22_operation_trees : forall parse leb m split_by k df alone,
  (forall how asc a b, leb how asc a b = true \/ leb how asc b a = true) ->
  (forall how asc a b c, leb how asc a b = true -> leb how asc b c = true -> leb how asc a c = true) ->
  let psort := fun how asc n => sort_rows (leb how asc) n in
  distinct_levels m split_by -> List.length k = List.length split_by ->
  rows_everywhere parse psort m [] (slice split_by k df) ->
  op_compute parse psort m [] (slice split_by k df) = Some alone ->
  exists R, op_compute parse psort m split_by df = Some R /\ restrict (List.length split_by) k R = alone.
Proof.
  intros parse leb m s k df r H1 H2 psort HD Hk HR Hr. rewrite <- (app_nil_r s) in HD.
  destruct (tree_slice parse leb H1 H2 m s [] k df r HD Hk HR Hr) as (R & E & H). rewrite app_nil_r in E. eauto.
Qed.
Print Assumptions C22_operation_trees.
(** Rows only for slices that occur in the data. *)
Theorem C22_operation_trees_no_other_slices : forall parse leb m split_by df R k v,
  let psort := fun how asc n => sort_rows (leb how asc) n in
  split_by <> [] -> op_compute parse psort m split_by df = Some R -> In (k, v) R ->
  exists r, In r df /\ row_key split_by r = Some (firstn (List.length split_by) k).
Proof.
  intros parse leb m s df R k v psort Hs E Hq. apply slice_nonempty. rewrite <- (app_nil_r s) in E. exact (tree_keys parse leb m s [] df R (k, v) Hs E Hq).
Qed.
Print Assumptions C22_operation_trees_no_other_slices.

(** A case: Distribution("p", Sum("x")) * Sum("x") + TopK(1, "p", Sum("x")), split by e; the other slice sums to 0. *)
Definition mixed_tree := OBin OpAdd (OBin OpMul (ODist ["p"] sum_x []) sum_x "share * sum" []) (ODiv (TopK 1) ["p"] sum_x []) "m" [].
Definition data2 : table := pandas_table (cell3 (Some "2") (Some "a") (Some 1%R) :: cell3 (Some "2") (Some "b") (Some (-1)%R) :: data).
Definition any_order (how : cum_how) (asc : bool) (a b : list string * num) : bool := true.
Lemma nlargest_some k l x : In (Fin x) l -> nlargest (S k) l <> [].
Proof.
  intros H E. unfold nlargest in E. assert (In (Fin x) (filter (fun y => negb (is_nan y)) (sort_desc l))) as Hi by (apply filter_In; split; [apply (Permutation_in _ (Permutation_sym (sort_desc_perm l))); exact H|reflexivity]).
  destruct (filter _ _); [destruct Hi|discriminate].
Qed.
Example C22_operation_trees_case : distinct_levels mixed_tree ["e"] /\
  rows_everywhere parse0 (fun how asc n => sort_rows (any_order how asc) n) mixed_tree [] (slice ["e"] ["0"] data2) /\
  op_compute parse0 (fun how asc n => sort_rows (any_order how asc) n) mixed_tree [] (slice ["e"] ["0"] data2) = Some [(["a"], Fin (7 / 4)); (["b"], Fin (15 / 4))].
Proof.
  split; [cbn; repeat split; repeat constructor; cbn; intuition discriminate|]. split.
  { cbn [rows_everywhere mixed_tree sum_x leaf_rows]. cbn zeta.
  assert (filter (pfilters parse0 []) (slice ["e"] ["0"] data2) = pandas_table [cell3 (Some "0") (Some "a") (Some 1%R); cell3 (Some "0") (Some "b") (Some 3%R)]) as E by reflexivity.
  rewrite !E. change (filter (pfilters parse0 []) (pandas_table ?l)) with (pandas_table l). repeat split; try (rewrite ?E; discriminate); try (cbn; discriminate).
  intros fr Ef. cbn in Ef. injection Ef as <-. intros g Hg. cbn -[nlargest] in Hg. destruct Hg as [<-|[]]. cbn [snd]. eapply nlargest_some. left. compare. reflexivity. }
  cbn. compare. cbn. compare. cbn. frames.
Qed.
