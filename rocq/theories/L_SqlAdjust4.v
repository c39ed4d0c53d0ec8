(** PrePostChange: the query gives the rows of pandas. *)
From Coq Require Import Reals List Bool String Arith ZArith Permutation Lia Lra FunctionalExtensionality.
From Verif Require Import M_Num M_Frame L_Frame M_Ops S_Ops M_Leaf S_Leaf L_Leaf L_Slices M_SqlGlobal L_SqlGlobal M_SqlLeaf S_SqlLeaf L_SqlLeaf L_SqlLeaf2 M_SqlOps S_SqlOps L_SqlOps S_RowOrder L_RowOrder M_SqlList S_SqlList M_SqlMHList M_Adjust L_Adjust M_SqlAdjust S_SqlAdjust L_SqlAdjust1 L_SqlAdjust2 L_SqlAdjust3.
Import ListNotations.
Open Scope string_scope.
Open Scope list_scope.

Lemma renamed_shown idx from to_ rows : ~ In to_ idx -> shown idx to_ (List.map (adj_rename idx from to_) rows) = shown idx from rows.
Proof.
  intros H. unfold shown. rewrite map_map. apply map_ext. intros r. f_equal.
  - apply map_ext_in. intros c Hc. unfold adj_rename. assert (mem c idx = true) as -> by (now apply mem_in). reflexivity.
  - unfold adj_rename. assert (mem to_ idx = false) as -> by (now apply mem_false). now rewrite String.eqb_refl.
Qed.
Lemma perm_complete c A B : Permutation A B -> complete c A -> complete c B.
Proof. intros HP H. unfold complete in *. rewrite Forall_forall in *. intros r Hr. apply H. now apply (Permutation_in _ (Permutation_sym HP)). Qed.
Lemma slice_complete c by_ k A : complete c A -> complete c (slice by_ k A).
Proof. intros H. apply (complete_sub c A); [exact H|]. intros r Hr. apply filter_In in Hr. tauto. Qed.
Lemma labelled_sub by_ by' T : incl by' by_ -> labelled_rows by_ T -> labelled_rows by' T.
Proof. intros Hi H r c Hr Hc. apply H; auto. Qed.

Section Values.
  Variables (parse : string -> cond) (s conds : list string) (y x : string) (T : stable) (A : table).
  Hypothesis Hc : conds <> [].
  Hypothesis HL : labelled_rows (s ++ conds) T.
  Hypothesis Hy : numbered y T.
  Hypothesis Hx : numbered x T.
  Hypothesis HP : Permutation (pandas_table T) A.
  Lemma by_ne : s ++ conds <> []. Proof. intros E. apply app_eq_nil in E as [_ E]. contradiction. Qed.
  Lemma labels_split : labelled_rows s T. Proof. apply (labelled_sub (s ++ conds)); [intros c Hi; apply in_or_app; auto|exact HL]. Qed.
  Lemma prepost_same : compute parse (prepost_metric y x) (s ++ conds) (pandas_table (centered_sql parse s x T)) = prepost_adjusted s conds y x A.
  Proof.
    pose proof (numbered_complete _ _ (centered_numbered parse s x T y Hx Hy)) as Cy. pose proof (numbered_complete _ _ (centered_numbered parse s x T x Hx Hx)) as Cx.
    rewrite (centered_pandas parse s x T labels_split) in *. pose proof (centered_perm s x _ _ HP) as HPc. apply (perm_complete _ _ _ HPc) in Cy, Cx.
    rewrite (compute_perm parse (prepost_metric y x) (s ++ conds)) with (df' := centered s x A); [|cbn; tauto|exact HPc].
    rewrite compute_mval by (cbn; tauto). unfold prepost_adjusted, compute_leaf. apply map_ext_in. intros k Hk. f_equal. apply prepost_mval; [now apply slice_complete..|].
    apply group_keys_In in Hk as [[E _]|[_ (r & Hr & Ek)]]; [exfalso; now apply by_ne|]. apply slice_nonempty. eauto.
  Qed.
End Values.

Section Result.
  Variables (parse : string -> cond) (srt : list okey -> list env -> list env) (psort : cum_how -> bool -> nat -> rframe -> rframe) (t : stable) (x : adj_op) (s : list string).
  Hypothesis Hdb : db_sorts srt.
  Hypothesis Hps : pandas_sorts psort.
  Hypothesis Hsup : supported_adj x s.
  Hypothesis Hleaf : adj_leaves_fit parse x s t.
  Hypothesis Hfit : adj_fits parse psort x s (pandas_table t).
  Lemma index_facts : a_cond x <> [] /\ List.length (a_base x) = List.length (a_cond x) /\ NoDup (s ++ a_cond x) /\ incl (s ++ a_cond x) (adj_by x s) /\ ~ In (value_name (a_child x)) (s ++ a_cond x).
  Proof.
    destruct Hsup as (H1 & H2 & _ & H3 & _ & _ & _ & _ & H4 & _). cbv zeta in *. unfold adj_by in *.
    assert (incl (s ++ a_cond x) (s ++ a_strata x ++ a_cond x)) as Hi by (intros c Hc; rewrite !in_app_iff in *; tauto). split; [exact H1|]. split; [exact H2|]. split; [|split; [exact Hi|auto]].
    revert H3. generalize (a_strata x). intros l. induction l as [|c l IH]; [auto|]. intros H3. apply IH. cbn [app] in H3. now apply NoDup_remove_1 in H3.
  Qed.
  Lemma prepost_result : a_kind x = PrePost -> exists rows result, adj_sql parse srt x s t = Some rows /\ adj_pandas parse psort x s (pandas_table t) = Some result /\
    same_rows (shown (adj_index x s) (adj_name x) rows) result.
  Proof.
    intros Hk. destruct (raw_aligned x s Hsup parse srt psort t Hdb Hps Hleaf Hfit) as (a & b & EC & HP & HL & Hy & Hx). destruct (Hfit a b EC) as [_ HF]. rewrite Hk in HF.
    destruct index_facts as (C1 & C2 & C3 & C4 & C5). pose proof (labelled_sub _ _ _ C4 HL) as HL'.
    unfold adj_sql, adj_pandas. rewrite (adj_raw_is x s Hsup), EC, Hk. unfold adj_value, adj_covariate. cbn [lcolumns adj_cols List.map fst List.hd List.last].
    set (yn := value_name (a_child x)) in *. set (xn := value_name (a_cov x)) in *. set (T := as_table _) in *.
    unfold change_of. rewrite Hk. 
    pose proof (prepost_same parse s (a_cond x) yn xn T _ C1 HL' Hy Hx HP) as ES. rewrite <- ES in HF.
    destruct (change_by parse srt psort Hdb Hps true s (a_cond x) (a_base x) (a_include_base x) (prepost_metric yn xn) yn (centered_sql parse s xn T)) as (result & E & R); auto.
    - destruct Hsup as (_ & _ & _ & _ & _ & _ & _ & _ & _ & _ & _ & H & _). cbv zeta in H. rewrite Hk in H. exact H.
    - apply prepost_fits; [now apply centered_labelled|apply centered_numbered; assumption..].
    - eexists. exists result. split; [reflexivity|]. rewrite ES in E. unfold prepost. split; [exact E|]. rewrite renamed_shown; [exact R|].
      destruct Hsup as (_ & _ & _ & _ & _ & _ & _ & _ & _ & _ & H & _). exact H.
  Qed.
End Result.
