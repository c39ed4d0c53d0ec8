(** C64: a MetricList computed by the generated SQL and by pandas gives the same columns and rows. *)
From Coq Require Import Reals List Bool String Arith Permutation Sorted Lia Lra.
From Verif Require Import M_Num M_Frame L_Frame M_Ops S_Ops M_Leaf M_SqlGlobal M_SqlLeaf S_SqlLeaf L_SqlLeaf L_SqlLeaf2 M_SqlOps S_SqlOps L_SqlOps7 L_SqlBin L_SqlScope L_SqlSort M_SqlList S_SqlList L_SqlList3 P_SqlOps.
Import ListNotations.
Open Scope string_scope.
Open Scope list_scope.

(** A list of any metrics of C62 with the same index columns and different names, no two of them the same but for the
    name; data that fits each of them (C62).  The query of the list gives the columns that pandas gives, and the rows. *)
Theorem C64_same_rows : forall parse srt psort t l split_by,
  db_sorts srt -> pandas_sorts psort -> supported_list l split_by ->
  list_leaves_fit parse l split_by t -> list_fits parse psort l split_by (pandas_table t) ->
  exists names rows, list_compute parse psort l split_by (pandas_table t) = (names, rows) /\
    list_columns (list_to_sql l split_by) = split_by ++ list_extra l ++ names /\
    Permutation (list_shown (split_by ++ list_extra l) names (run_list parse srt (list_to_sql l split_by) t))
                (List.map (fun kv => (List.map Some (fst kv), snd kv)) rows).
Proof.
  intros parse srt psort t l by_ H1 H2 H3 H4 H5. destruct (whole_list parse srt psort t l by_ H1 H2 H3 H4 H5) as (rows & E & P).
  exists (List.map value_name (ml_children l)), rows. split; [exact E|]. split; [now apply list_well_formed|exact P].
Qed.
Print Assumptions C64_same_rows.
(** Every column the query mentions is a column of its source, for any data. *)
Theorem C64_well_formed : forall l split_by, supported_list l split_by ->
  list_scoped (list_to_sql l split_by) = true /\
  list_columns (list_to_sql l split_by) = split_by ++ list_extra l ++ List.map value_name (ml_children l).
Proof. intros. now apply list_well_formed. Qed.

(** ** A case: MetricList([Sum("x"), HHI("p", Sum("x")), Sum("x") + 1], where="x > 0"), split by e *)
Definition plus_one := OConstR OpAdd sum_x 1 "sum(x) + 1" [].
Definition hhi_x := ODiv HHI ["p"] sum_x [].
Definition list1 := MList [sum_x; hhi_x; plus_one] ["x > 0"].
Ltac decide_same Eq := repeat match type of Eq with context[same ?a ?b] => (rewrite (same_neq a b) in Eq by discriminate) || (rewrite (same_refl a) in Eq) end.
Ltac known q := assert (exists q', q' = q) as [q' Eq] by eauto; rewrite <- Eq; lazy -[same Rplus Rmult Rinv Ropp IZR] in Eq; decide_same Eq; lazy -[same Rplus Rmult Rinv Ropp IZR] in Eq; decide_same Eq; lazy -[same Rplus Rmult Rinv Ropp IZR] in Eq; decide_same Eq; lazy -[same Rplus Rmult Rinv Ropp IZR] in Eq.
Lemma sums1_list : op_compute parse0 pd_sort sum_x ["e"; "p"] (filter (pfilters parse0 []) (filter (pfilters parse0 ["x > 0"]) (pandas_table data))) = Some sums1.
Proof.
  assert (filter (pfilters parse0 ["x > 0"]) (pandas_table data) = pandas_table (firstn 4 data)) as -> by (cbn -[Rltb]; compare; reflexivity).
  assert (filter (pfilters parse0 []) (pandas_table (firstn 4 data)) = pandas_table (firstn 4 data)) as -> by reflexivity. exact computed1.
Qed.
Example C64_case : supported_list list1 ["e"] /\ list_leaves_fit parse0 list1 ["e"] data /\ list_fits parse0 pd_sort list1 ["e"] (pandas_table data) /\
  list_compute parse0 pd_sort list1 ["e"] (pandas_table data) =
    (["sum(x)"; "HHI of sum(x)"; "sum(x) + 1"], [(["0"], [Fin 4; Fin (10 / 16); Fin 5]); (["1"], [Fin 4; Fin (8 / 16); Fin 5])]) /\
  exists cols t0 t1, list_to_sql list1 ["e"] = Chain cols [t0; t1] ["e"] /\ List.map snd cols = [(0%nat, "sum(x)"); (1%nat, "HHI of sum(x)"); (0%nat, "sum(x) + 1")].
Proof.
  split; [|split; [|split; [|split]]].
  - split; [discriminate|]. split; [|split].
    + intros m [<-|[<-|[<-|[]]]]; (split; [|reflexivity]); cbn; repeat split; try discriminate; try (intros [H|[H|[]]]; discriminate); try (intros [H|[]]; discriminate); try (unfold sum_x; eauto; fail); repeat constructor; cbn; intuition discriminate.
    + repeat constructor; cbn; intuition discriminate.
    + repeat constructor; intros H; lazy -[Rplus Rmult Rinv Ropp IZR] in H; inversion H.
  - intros m [<-|[<-|[<-|[]]]] mt ab lc bb [E|[]]; injection E as <- <- <- <-; (apply (sum_leaf_fits parse0 ["x > 0"]); [discriminate|intros [H|[]]; discriminate|intros; cbn; discriminate| |]).
    all: try (intros r Hr; cbn in Hr; repeat (destruct Hr as [<-|Hr]; [discriminate|]); destruct Hr; fail).
    all: intros r c Hr Hc; cbn in Hr, Hc; repeat (destruct Hr as [<-|Hr]; [cbn; destruct (string_dec c "e"); discriminate|]); destruct Hr.
  - intros m [<-|[<-|[<-|[]]]]; [exact I| |].
    + split; [exact I|]. cbn zeta. intros fr E. change (op_compute parse0 pd_sort sum_x ["e"; "p"] (filter (pfilters parse0 []) (filter (pfilters parse0 ["x > 0"]) (pandas_table data))) = Some fr) in E. rewrite sums1_list in E. injection E as <-.
      split; [discriminate|]. split; [|exact I]. intros k v Hi. cbn in Hi. repeat (destruct Hi as [E|Hi]; [injection E as <- <-; split; [discriminate|cbn; lra]|]). destruct Hi.
    + split; [exact I|]. intros fr _. discriminate.
  - unfold list_compute. cbn zeta. cbn [ml_children ml_where list1 flat_map].
    assert (op_compute parse0 pd_sort hhi_x ["e"] (filter (pfilters parse0 ["x > 0"]) (pandas_table data)) = Some [(["0"], Fin (10 / 16)); (["1"], Fin (8 / 16))]) as ->.
    { change (option_map (hhi 1) (op_compute parse0 pd_sort sum_x ["e"; "p"] (filter (pfilters parse0 []) (filter (pfilters parse0 ["x > 0"]) (pandas_table data)))) = Some [(["0"], Fin (10 / 16)); (["1"], Fin (8 / 16))]). rewrite sums1_list. run. compare. run. frames. }
    assert (filter (pfilters parse0 ["x > 0"]) (pandas_table data) = pandas_table (firstn 4 data)) as -> by (cbn -[Rltb]; compare; reflexivity).
    run. frames.
  - match goal with |- exists _ _ _, ?q = _ /\ _ => known q end. subst q'. eexists _, _, _. split; [reflexivity|]. reflexivity.
Qed.

(** ** Where they differ *)
(** The same metric under two names: pandas gives two columns, the query has one. *)
Definition sum_x_b := OLeaf (MLeaf (Lf (LSum (Col "x"))) []) "b".
Theorem C64_two_names_refuted : let l := MList [sum_x; sum_x_b] [] in
  (forall parse psort df, fst (list_compute parse psort l ["p"] df) = ["sum(x)"; "b"]) /\ list_columns (list_to_sql l ["p"]) = ["p"; "sum(x)"].
Proof. split; [reflexivity|]. match goal with |- list_columns ?q = _ => known q end. subst q'. reflexivity. Qed.
(** With one more child, whose query cannot be merged, the query refers to a column that does not exist. *)
Theorem C64_two_names_scope_refuted : list_scoped (list_to_sql (MList [sum_x; sum_x_b; hhi_x] []) ["e"]) = false.
Proof. match goal with |- list_scoped ?q = _ => known q end. subst q'. reflexivity. Qed.
(** Two metrics with the same name: pandas gives both, the query gives the first only. *)
Theorem C64_same_name_refuted : let l := MList [OLeaf (MLeaf (Lf (LSum (Col "x"))) []) "a"; OLeaf (MLeaf (Lf (LSum (Col "y"))) []) "a"; hhi_x] [] in
  (forall parse psort df, fst (list_compute parse psort l ["e"] df) = ["a"; "a"; "HHI of sum(x)"]) /\
  list_columns (list_to_sql l ["e"]) = ["e"; "a"; "HHI of sum(x)"].
Proof. split; [reflexivity|]. match goal with |- list_columns ?q = _ => known q end. subst q'. reflexivity. Qed.
