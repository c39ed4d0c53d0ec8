(** ChangeRaw: the leaf metrics of the list in one table; the join with the rows of the baseline, column by column. *)
From Coq Require Import Reals List Bool String Arith Permutation Lia Lra.
From Verif Require Import M_Num M_Frame L_Frame M_Ops S_Ops L_OpsA L_OpsB M_SqlGlobal S_SqlGlobal L_SqlGlobal M_SqlLeaf S_SqlLeaf L_SqlLeaf L_SqlLeaf2 M_SqlOps S_SqlOps L_SqlOps L_SqlOps2 L_SqlOps7 L_SqlBin L_SqlScope M_SqlList S_SqlList L_SqlList M_OpList S_OpList L_OpList6 M_SqlMHList S_SqlMHList L_SqlMHList1 L_SqlMHList2 M_SqlChangeList S_SqlChangeList.
Import ListNotations.
Open Scope string_scope.
Open Scope list_scope.

Lemma append_inj_r s : forall a b, String.append a s = String.append b s -> a = b.
Proof.
  assert (forall a, String.length (String.append a s) = (String.length a + String.length s)%nat) as HL by (induction a; cbn; congruence).
  induction a as [|c a IH]; intros [|d b] E; cbn in E.
  - reflexivity.
  - exfalso. apply (f_equal String.length) in E. cbn in E. rewrite HL in E. lia.
  - exfalso. apply (f_equal String.length) in E. cbn in E. rewrite HL in E. lia.
  - injection E as -> E. f_equal. auto.
Qed.
Lemma pairs_map {A B} (P : A -> A -> Prop) (Q : B -> B -> Prop) (f : A -> B) l : (forall a b, In a l -> In b l -> P a b -> Q (f a) (f b)) -> ForallOrdPairs P l -> ForallOrdPairs Q (List.map f l).
Proof.
  induction l as [|a l IH]; intros H HP; [constructor|]. inversion HP as [|? ? H1 H2]; subst. cbn [List.map]. constructor; [|apply IH; [intros; apply H; auto; now right|exact H2]].
  apply Forall_forall. intros b Hb. apply in_map_iff in Hb as (b' & <- & Hb). rewrite Forall_forall in H1. apply H; [now left|now right|auto].
Qed.
Lemma nodup_pairs {A B} (f : A -> B) l : NoDup (List.map f l) -> ForallOrdPairs (fun a b => f a <> f b) l.
Proof.
  induction l as [|a l IH]; intros H; [constructor|]. cbn [List.map] in H. inversion H as [|? ? H1 H2]; subst. constructor; [|auto].
  apply Forall_forall. intros b Hb E. apply H1. rewrite E. now apply in_map.
Qed.

Section Raw.
  Variables (x : chl_op) (s : list string).
  Hypothesis Hsup : supported_chl x s.
  Notation I := (chl_index x s).
  Notation glob := (get_global_filter (chl_filter_tree x)).
  Definition cexpr (m : otree) : sexpr := sql_column glob (chl_local x) (leaf_of m).
  Definition raw_cols : list (string * sexpr) := List.map (fun m => (value_name m, cexpr m)) (h_metrics x).
  Lemma child_leaf_c m : is_leaf m -> chl_child_sql x s m = SqlLeaf (Query (cexpr m) glob I) (value_name m).
  Proof. destruct m; cbn [is_leaf]; intros H; try contradiction. reflexivity. Qed.
  Lemma leaf_in m : In m (h_metrics x) -> is_leaf m. Proof. intros H. destruct Hsup as (_ & _ & _ & H' & _). now destruct (H' m H). Qed.
  Lemma raw_cols_nodup : NoDup (List.map fst raw_cols).
  Proof. unfold raw_cols. rewrite map_map. apply Hsup. Qed.
  Lemma singles {A} (g : A -> string * sexpr) l : forall C, fold_left (fun acc cs => fold_left add_column cs acc) (List.map (fun a => [g a]) l) C = fold_left add_column (List.map g l) C.
  Proof. induction l as [|a l IH]; intros C; [reflexivity|]. cbn [List.map fold_left]. apply IH. Qed.
  (** The table has the columns of the metrics under their names. *)
  Lemma raw_is : chl_raw x s = Some (LLeaf raw_cols glob I).
  Proof.
    unfold chl_raw. rewrite (map_ext_in _ (fun m => LLeaf [(value_name m, cexpr m)] glob I)).
    2:{ intros m Hm. rewrite child_leaf_c by now apply leaf_in. reflexivity. }
    rewrite <- (map_map (fun m => [(value_name m, cexpr m)]) (fun cs => LLeaf cs glob I)). pose proof raw_cols_nodup as HN.
    assert (ForallOrdPairs (fun c c' : string * sexpr => snd c <> snd c') raw_cols) as HP.
    { unfold raw_cols. pose proof Hsup as (_ & _ & _ & _ & _ & HR). revert HR. apply pairs_map. intros m m' Hm Hm' HR E. cbn [snd] in E. apply HR.
      rewrite !child_leaf_c by now apply leaf_in. rewrite E. constructor. }
    assert (h_metrics x <> []) as Hne by apply Hsup. unfold raw_cols in *. destruct (h_metrics x) as [|m0 ms]; [congruence|].
    change (List.map (fun m => [(value_name m, cexpr m)]) (m0 :: ms)) with ([(value_name m0, cexpr m0)] :: List.map (fun m => [(value_name m, cexpr m)]) ms).
    rewrite one_table_leaf. rewrite (singles (fun m => (value_name m, cexpr m))). f_equal. f_equal. rewrite add_columns_all; [reflexivity|exact HN|exact HP].
  Qed.
  Lemma index_nodup : NoDup I.
  Proof.
    destruct Hsup as (_ & _ & Hne & H & _). destruct (h_metrics x) as [|m ms]; [congruence|]. destruct (H m (or_introl eq_refl)) as (L1 & S1 & _). pose proof (nodup_index _ _ S1) as N. destruct m; try destruct L1. cbn [extra_idx] in N. now rewrite app_nil_r in N.
  Qed.
  Lemma name_free m : In m (h_metrics x) -> ~ In (value_name m) I.
  Proof.
    intros Hm. destruct Hsup as (_ & _ & _ & H & _). destruct (H m Hm) as (L1 & S1 & _). destruct m; try destruct L1. cbn [supported_tree extra_idx] in S1. destruct S1 as [S1 _]. now rewrite app_nil_r in S1.
  Qed.

  Section Data.
  Variables (parse : string -> cond) (srt : list okey -> list env -> list env) (psort : cum_how -> bool -> nat -> rframe -> rframe) (t : stable).
  Hypothesis Hdb : db_sorts srt.
  Hypothesis Hps : pandas_sorts psort.
  Hypothesis Hleaf : chl_leaves_fit parse x s t.
  Notation df := (pandas_table t).
  Notation raw := (LLeaf raw_cols glob I).
  Notation Raw := (run_table parse srt raw t).
  Notation child := (child_of parse psort (change_of x) (h_where x) (h_list_where x) s df).

  Lemma child_inv m : In m (h_metrics x) -> exists F, child m = Some F /\ inv parse srt t (chl_child_sql x s m) I (value_name m) F /\ (I = [] -> F <> []).
  Proof.
    intros Hm. pose proof (leaf_in m Hm) as Hl. destruct Hsup as (_ & _ & _ & H & _). destruct (H m Hm) as (_ & Hs & _). clear H.
    assert (extra_idx m = []) as Ee by (destruct m; try destruct Hl; reflexivity).
    assert (all_fit parse t glob m I (h_where x ++ h_list_where x) (chl_local x)) as Hall by (intros b fs lc by' Hb; exact (Hleaf m Hm b fs lc by' Hb)).
    pose proof (nonempty_above parse t glob m _ _ _ Hall) as Hw.
    assert (~ In "" (h_where x) /\ ~ In "" (h_list_where x)) as (W1 & W2) by (split; intros Hi; apply Hw; rewrite !in_app_iff; auto).
    pose proof (tree_step parse srt psort t Hdb Hps glob m I (h_where x ++ h_list_where x) (chl_local x) Hall Hs) as HT. rewrite Ee, app_nil_r in HT.
    unfold chl_child_sql. unfold child_of, change_of, lop_over. fold (chl_index x s). rewrite filter_pfilters_app. apply HT; clear HT.
    2:{ destruct m; try destruct Hl. exact Coq.Init.Logic.I. }
    split; [|split].
    - intros Hi. apply remove_in in Hi as [Hi _]. revert Hi. apply add_nonempty, add_nonempty. intros [].
    - intros row Hrow. unfold chl_local. assert (~ In "" (remove (add (add [] (h_where x)) []) glob)) as N1 by (intros Hi; apply remove_in in Hi as [Hi _]; revert Hi; apply add_nonempty, add_nonempty; intros []).
      rewrite spass_step by assumption. rewrite spass_step by (assumption || intros []). rewrite !spass_app. cbn [spass]. change (spass parse [] row) with true. rewrite !andb_true_r.
      destruct (spass parse (h_where x) row), (spass parse (h_list_where x) row); reflexivity.
    - intros p Hp. assert (In p (paths [] (chl_filter_tree x))) as Hp'.
      { unfold chl_filter_tree. eapply paths_child; [now left|]. eapply paths_child; [apply in_map, Hm|]. cbn [app]. exact Hp. }
      intros f Hf. apply (global_in_paths _ _ _ f) in Hp'; auto. intros ->. now apply nonempty_global in Hf.
  Qed.
  (** Every metric has its column in the table. *)
  Lemma own_column m : In m (h_metrics x) -> obs I (value_name m) Raw = obs I (value_name m) (run_sql parse srt (chl_child_sql x s m) t).
  Proof.
    intros Hm. rewrite child_leaf_c by now apply leaf_in. rewrite leaf_rows by (exact index_nodup || now apply name_free).
    apply leaf_rows_many; [exact index_nodup|exact raw_cols_nodup| |now apply name_free]. unfold raw_cols. apply in_map_iff. now exists m.
  Qed.
  End Data.
End Raw.
