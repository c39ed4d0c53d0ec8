(** DistributionRaw: the leaf metrics of the list in one table. *)
From Coq Require Import Reals List Bool String Arith Permutation Lia Lra.
From Verif Require Import M_Num M_Frame L_Frame M_Ops S_Ops L_OpsA L_OpsB M_SqlGlobal S_SqlGlobal L_SqlGlobal M_SqlLeaf S_SqlLeaf L_SqlLeaf L_SqlLeaf2 M_SqlOps S_SqlOps L_SqlOps L_SqlOps2 L_SqlOps7 L_SqlBin L_SqlScope M_SqlList S_SqlList L_SqlList M_OpList S_OpList L_OpList6 M_SqlMHList S_SqlMHList L_SqlMHList1 L_SqlMHList2 M_SqlDistList S_SqlDistList L_SqlChangeList1.
Import ListNotations.
Open Scope string_scope.
Open Scope list_scope.

Section Raw.
  Variables (x : M_SqlDistList.dl_op) (s : list string).
  Hypothesis Hsup : supported_dl x s.
  Notation I := (dl_index x s).
  Notation glob := (get_global_filter (dl_filter_tree x)).
  Definition cexpr (m : otree) : sexpr := sql_column glob (dl_local x) (leaf_of m).
  Definition raw_cols : list (string * sexpr) := List.map (fun m => (value_name m, cexpr m)) (d_metrics x).
  Lemma child_leaf_c m : is_leaf m -> dl_child_sql x s m = SqlLeaf (Query (cexpr m) glob I) (value_name m).
  Proof. destruct m; cbn [is_leaf]; intros H; try contradiction. reflexivity. Qed.
  Lemma leaf_in m : In m (d_metrics x) -> is_leaf m. Proof. intros H. destruct Hsup as (_ & H' & _). now destruct (H' m H). Qed.
  Lemma raw_cols_nodup : NoDup (List.map fst raw_cols).
  Proof. unfold raw_cols. rewrite map_map. apply Hsup. Qed.
  Lemma singles {A} (g : A -> string * sexpr) l : forall C, fold_left (fun acc cs => fold_left add_column cs acc) (List.map (fun a => [g a]) l) C = fold_left add_column (List.map g l) C.
  Proof. induction l as [|a l IH]; intros C; [reflexivity|]. cbn [List.map fold_left]. apply IH. Qed.
  (** The table has the columns of the metrics under their names. *)
  Lemma raw_is : dl_raw x s = Some (LLeaf raw_cols glob I).
  Proof.
    unfold dl_raw. rewrite (map_ext_in _ (fun m => LLeaf [(value_name m, cexpr m)] glob I)).
    2:{ intros m Hm. rewrite child_leaf_c by now apply leaf_in. reflexivity. }
    rewrite <- (map_map (fun m => [(value_name m, cexpr m)]) (fun cs => LLeaf cs glob I)). pose proof raw_cols_nodup as HN.
    assert (ForallOrdPairs (fun c c' : string * sexpr => snd c <> snd c') raw_cols) as HP.
    { unfold raw_cols. pose proof Hsup as (_ & _ & _ & HR). revert HR. apply pairs_map. intros m m' Hm Hm' HR E. cbn [snd] in E. apply HR.
      rewrite !child_leaf_c by now apply leaf_in. rewrite E. constructor. }
    assert (d_metrics x <> []) as Hne by apply Hsup. unfold raw_cols in *. destruct (d_metrics x) as [|m0 ms]; [congruence|].
    change (List.map (fun m => [(value_name m, cexpr m)]) (m0 :: ms)) with ([(value_name m0, cexpr m0)] :: List.map (fun m => [(value_name m, cexpr m)]) ms).
    rewrite one_table_leaf. rewrite (singles (fun m => (value_name m, cexpr m))). f_equal. f_equal. rewrite add_columns_all; [reflexivity|exact HN|exact HP].
  Qed.
  Lemma index_nodup : NoDup I.
  Proof.
    destruct Hsup as (Hne & H & _). destruct (d_metrics x) as [|m ms]; [congruence|]. destruct (H m (or_introl eq_refl)) as (L1 & S1 & _). pose proof (nodup_index _ _ S1) as N. destruct m; try destruct L1. cbn [extra_idx] in N. now rewrite app_nil_r in N.
  Qed.
  Lemma name_free m : In m (d_metrics x) -> ~ In (value_name m) I.
  Proof.
    intros Hm. destruct Hsup as (_ & H & _). destruct (H m Hm) as (L1 & S1 & _). destruct m; try destruct L1. cbn [supported_tree extra_idx] in S1. destruct S1 as [S1 _]. now rewrite app_nil_r in S1.
  Qed.

  Section Data.
  Variables (parse : string -> cond) (srt : list okey -> list env -> list env) (psort : cum_how -> bool -> nat -> rframe -> rframe) (t : stable).
  Hypothesis Hdb : db_sorts srt.
  Hypothesis Hps : pandas_sorts psort.
  Hypothesis Hleaf : dl_leaves_fit parse x s t.
  Notation df := (pandas_table t).
  Notation raw := (LLeaf raw_cols glob I).
  Notation Raw := (run_table parse srt raw t).
  Notation child := (child_of parse psort (dist_of x) (d_where x) (d_list_where x) s df).

  Lemma child_inv m : In m (d_metrics x) -> exists F, child m = Some F /\ inv parse srt t (dl_child_sql x s m) I (value_name m) F /\ (I = [] -> F <> []).
  Proof.
    intros Hm. pose proof (leaf_in m Hm) as Hl. destruct Hsup as (_ & H & _). destruct (H m Hm) as (_ & Hs & _). clear H.
    assert (extra_idx m = []) as Ee by (destruct m; try destruct Hl; reflexivity).
    assert (all_fit parse t glob m I (d_where x ++ d_list_where x) (dl_local x)) as Hall by (intros b fs lc by' Hb; exact (Hleaf m Hm b fs lc by' Hb)).
    pose proof (nonempty_above parse t glob m _ _ _ Hall) as Hw.
    assert (~ In "" (d_where x) /\ ~ In "" (d_list_where x)) as (W1 & W2) by (split; intros Hi; apply Hw; rewrite !in_app_iff; auto).
    pose proof (tree_step parse srt psort t Hdb Hps glob m I (d_where x ++ d_list_where x) (dl_local x) Hall Hs) as HT. rewrite Ee, app_nil_r in HT.
    unfold dl_child_sql. unfold child_of, dist_of, lop_over. fold (dl_index x s). rewrite filter_pfilters_app. apply HT; clear HT.
    2:{ destruct m; try destruct Hl. exact Coq.Init.Logic.I. }
    split; [|split].
    - intros Hi. apply remove_in in Hi as [Hi _]. revert Hi. apply add_nonempty, add_nonempty. intros [].
    - intros row Hrow. unfold dl_local. assert (~ In "" (remove (add (add [] (d_where x)) []) glob)) as N1 by (intros Hi; apply remove_in in Hi as [Hi _]; revert Hi; apply add_nonempty, add_nonempty; intros []).
      rewrite spass_step by assumption. rewrite spass_step by (assumption || intros []). rewrite !spass_app. cbn [spass]. change (spass parse [] row) with true. rewrite !andb_true_r.
      destruct (spass parse (d_where x) row), (spass parse (d_list_where x) row); reflexivity.
    - intros p Hp. assert (In p (paths [] (dl_filter_tree x))) as Hp'.
      { unfold dl_filter_tree. eapply paths_child; [now left|]. eapply paths_child; [apply in_map, Hm|]. cbn [app]. exact Hp. }
      intros f Hf. apply (global_in_paths _ _ _ f) in Hp'; auto. intros ->. now apply nonempty_global in Hf.
  Qed.
  (** Every metric has its column in the table. *)
  Lemma own_column m : In m (d_metrics x) -> obs I (value_name m) Raw = obs I (value_name m) (run_sql parse srt (dl_child_sql x s m) t).
  Proof.
    intros Hm. rewrite child_leaf_c by now apply leaf_in. rewrite leaf_rows by (exact index_nodup || now apply name_free).
    apply leaf_rows_many; [exact index_nodup|exact raw_cols_nodup| |now apply name_free]. unfold raw_cols. apply in_map_iff. now exists m.
  Qed.
  End Data.
End Raw.
