(** C81: PrePostChange and CUPED computed by the generated SQL and by pandas give the same rows. *)
From Coq Require Import Reals List Bool String Arith Permutation Sorted Lia Lra.
From Verif Require Import M_Num M_Frame L_Frame M_Ops S_Ops M_Leaf S_Leaf L_Leaf L_Adjust M_SqlGlobal M_SqlLeaf S_SqlLeaf L_SqlLeaf L_SqlLeaf2 M_SqlOps S_SqlOps L_SqlOps7 L_SqlBin L_SqlScope L_SqlSort M_SqlList S_SqlList M_SqlMHList M_Adjust M_SqlMH P_SqlOps P_SqlList P_SqlMH M_SqlAdjust S_SqlAdjust L_SqlAdjust4 L_SqlAdjust6.
Import ListNotations.
Open Scope string_scope.
Open Scope list_scope.

(** Any two leaf metrics of C16 as child and covariate, any condition columns, baseline, strata, split_by and filters; data that fits the two
    metrics, in which both have a number for every combination of labels and every slice of split_by has the baseline; any way the database and
    pandas sort. *)
Theorem C81_same_rows : forall parse srt psort t x split_by,
  db_sorts srt -> pandas_sorts psort -> supported_adj x split_by ->
  adj_leaves_fit parse x split_by t -> adj_fits parse psort x split_by (pandas_table t) ->
  exists rows result, adj_sql parse srt x split_by t = Some rows /\ adj_pandas parse psort x split_by (pandas_table t) = Some result /\
    same_rows (shown (split_by ++ a_cond x) (adj_name x) rows) result.
Proof.
  intros parse srt psort t x s H1 H2 H3 H4 H5. destruct (a_kind x) eqn:E.
  - exact (prepost_result parse srt psort t x s H1 H2 H3 H4 H5 E).
  - exact (cuped_result parse srt psort t x s H1 H2 H3 H4 H5 E).
Qed.
Print Assumptions C81_same_rows.

(** ** A case: PrePostChange and CUPED("e", "0", Sum("y"), Sum("x"), "p", where="x > 0") *)
Definition adj1 (k : adjustment) := AdjOp k ["e"] ["0"] ["p"] false sum_y sum_x ["x > 0"].
Definition dataadj : stable := [cellxy "0" "a" 1 1; cellxy "0" "b" 3 3; cellxy "1" "a" 1 5; cellxy "1" "b" 3 9; cellxy "1" "b" (-1) 7].
Definition dataadj' : stable := [cellxy "0" "a" 1 1; cellxy "0" "b" 3 3; cellxy "1" "a" 1 5; cellxy "1" "b" 3 9].
Lemma dataadj_filtered : filter (pfilters parse0 ["x > 0"]) (pandas_table dataadj) = pandas_table dataadj'.
Proof. cbn -[Rltb]. compare. reflexivity. Qed.
Definition kid_y : rframe := [(["a"; "0"], Fin 1); (["a"; "1"], Fin 5); (["b"; "0"], Fin 3); (["b"; "1"], Fin 9)].
Definition kid_x : rframe := [(["a"; "0"], Fin 1); (["a"; "1"], Fin 1); (["b"; "0"], Fin 3); (["b"; "1"], Fin 3)].
Lemma adj_kids k : adj_children parse0 pd_sort (adj1 k) [] (pandas_table dataadj) = Some (kid_y, kid_x).
Proof.
  unfold adj_children. cbn zeta. cbn [adj1 a_where a_child a_cov]. rewrite dataadj_filtered.
  assert (op_compute parse0 pd_sort sum_y (adj_by (adj1 k) []) (pandas_table dataadj') = Some kid_y) as -> by (cbn; frames).
  assert (op_compute parse0 pd_sort sum_x (adj_by (adj1 k) []) (pandas_table dataadj') = Some kid_x) as -> by (cbn; frames).
  reflexivity.
Qed.
Notation tadj := (aligned ["p"; "e"] "sum(y)" "sum(x)" kid_y kid_x).
Lemma tadj_complete : complete (Col "sum(y)") (slice [] [] tadj) /\ complete (Col "sum(x)") (slice [] [] tadj).
Proof. split; repeat constructor; eexists; reflexivity. Qed.
Ltac crossing := rewrite cross_formula by discriminate; unfold sum_of, size; cbn; lra.
Ltac averages := unfold intercept, slope; rewrite !cross_formula by discriminate; unfold center, mean_of, sum_of, size; cbn; field.
Lemma adjusted_of (fr : rframe) u v : List.map fst fr = [["0"]; ["1"]] -> In (["0"], u) fr -> In (["1"], v) fr -> fr = [(["0"], u); (["1"], v)].
Proof.
  destruct fr as [|[k0 u0] [|[k1 u1] [|]]]; try discriminate. intros E. cbn in E. injection E as -> ->.
  intros [E0|[E0|[]]] [E1|[E1|[]]]; congruence.
Qed.
Lemma value_in g fr v : value_at g fr v -> In (g, v) fr.
Proof. intros H. assert (In (g, v) (filter (fun r => if list_eq_dec string_dec (fst r) g then true else false) fr)) as Hi by (rewrite H; now left). now apply filter_In in Hi. Qed.
Lemma adjusted_prepost : prepost_adjusted [] ["e"] "sum(y)" "sum(x)" tadj = [(["0"], Fin 2); (["1"], Fin 7)].
Proof.
  assert (D : "sum(y)" <> "sum(x)") by discriminate. destruct tadj_complete as [Hy Hx]. apply adjusted_of; [reflexivity| |].
  - eapply eq_ind_r with (P := fun z => In (["0"], Fin z) _).
    + apply value_in, (prepost_value [] ["e"] "sum(y)" "sum(x)" D tadj [] eq_refl Hy Hx ["0"]). crossing.
    + averages.
  - eapply eq_ind_r with (P := fun z => In (["1"], Fin z) _).
    + apply value_in, (prepost_value [] ["e"] "sum(y)" "sum(x)" D tadj [] eq_refl Hy Hx ["1"]). crossing.
    + averages.
Qed.
Lemma adjusted_cuped : cuped_adjusted [] ["e"] "sum(y)" "sum(x)" tadj = [(["0"], Fin 2); (["1"], Fin 7)].
Proof.
  assert (D : "sum(y)" <> "sum(x)") by discriminate. destruct tadj_complete as [Hy Hx]. apply adjusted_of; [reflexivity| |].
  - eapply eq_ind_r with (P := fun z => In (["0"], Fin z) _).
    + apply value_in, (cuped_value [] ["e"] "sum(y)" "sum(x)" D tadj [] eq_refl Hy Hx ["0"]); [discriminate|crossing].
    + averages.
  - eapply eq_ind_r with (P := fun z => In (["1"], Fin z) _).
    + apply value_in, (cuped_value [] ["e"] "sum(y)" "sum(x)" D tadj [] eq_refl Hy Hx ["1"]); [discriminate|crossing].
    + averages.
Qed.

Definition adj_result (k : adjustment) : rframe := [(["1"], Fin (match k with PrePost => 250 | Cuped => 5 end))].
Example C81_case : forall k, supported_adj (adj1 k) [] /\ adj_leaves_fit parse0 (adj1 k) [] dataadj /\ adj_fits parse0 pd_sort (adj1 k) [] (pandas_table dataadj) /\
  adj_pandas parse0 pd_sort (adj1 k) [] (pandas_table dataadj) = Some (adj_result k).
Proof.
  intros k. split; [|split; [|split]].
  - unfold supported_adj. cbn zeta. split; [discriminate|]. split; [reflexivity|]. split; [discriminate|].
    split; [repeat constructor; cbn; intuition discriminate|]. split; [do 2 eexists; reflexivity|]. split; [do 2 eexists; reflexivity|]. split; [discriminate|].
    split; [intros H; destruct k; lazy in H; inversion H|]. repeat split; try (destruct k; cbn; intuition discriminate); discriminate.
  - assert (forall r, In r dataadj -> (forall c, slab r c <> None) /\ (forall c, snum r c <> None)) as HD.
    { intros r Hr. unfold dataadj in Hr. cbn [In] in Hr. repeat (destruct Hr as [<-|Hr]; [split; discriminate|]). destruct Hr. }
    intros m Hm mt ab lc bb Hb. destruct k; destruct Hm as [-> | ->]; destruct Hb as [E|[]]; injection E as <- <- <- <-.
    all: apply (sum_col_fits parse0 _ ["x > 0"]); [discriminate|intros [H|[]]; discriminate|intros; cbn; discriminate|intros r c Hr _; now apply HD|intros r Hr; now apply HD].
  - intros a b E. rewrite adj_kids in E. injection E as <- <-. split.
    + intros q Hq. cbn in Hq. repeat (destruct Hq as [Hq|Hq]); try contradiction; subst; split; eexists; cbn; auto 9.
    + assert (forall p, change_fits p 0 ["0"] [(["0"], Fin 2); (["1"], Fin 7)]) as HC.
      { intros p. split; [discriminate|]. intros s c r v Hs Hc Hi. destruct s; [|discriminate]. destruct c as [|c0 [|]]; try discriminate.
        exists (Fin 2). cbn [app] in *. destruct Hi as [Hi|[Hi|[]]]; injection Hi as _ <- _; (split; [now left|]); intros _ E; injection E as E; lra. }
      destruct k; cbn [adj1 a_kind a_cond a_child a_cov a_base]; cbn [sum_y sum_x value_name];
        [change (change_fits true 0 ["0"] (prepost_adjusted [] ["e"] "sum(y)" "sum(x)" tadj)); rewrite adjusted_prepost
        |change (change_fits false 0 ["0"] (cuped_adjusted [] ["e"] "sum(y)" "sum(x)" tadj)); rewrite adjusted_cuped]; apply HC.
  - unfold adj_pandas. rewrite adj_kids. destruct k.
    + change (percent_change 0 1 ["0"] false (prepost_adjusted [] ["e"] "sum(y)" "sum(x)" tadj) = Some [(["1"], Fin 250)]). rewrite adjusted_prepost. run. compare. run. frames.
    + change (absolute_change 0 1 ["0"] false (cuped_adjusted [] ["e"] "sum(y)" "sum(x)" tadj) = Some [(["1"], Fin 5)]). rewrite adjusted_cuped. run. frames.
Qed.
