(** The adjusting query on a table with one row per combination of labels, and pandas on the same table. *)
From Coq Require Import Reals List Bool String Arith ZArith Permutation Lia Lra FunctionalExtensionality.
From Verif Require Import M_Num M_Frame L_Frame M_Ops S_Ops M_Leaf S_Leaf L_Leaf L_Leaf2 L_Slices M_SqlGlobal M_SqlLeaf S_SqlLeaf L_SqlLeaf L_SqlLeaf2 M_Adjust L_Adjust M_SqlOps S_SqlOps L_SqlOps7 P_SqlOps L_RowOrder M_SqlList M_SqlMHList M_SqlAdjust L_SqlAdjust1.
Import ListNotations.
Open Scope string_scope.
Open Scope list_scope.

Lemma slice_group by_ K T : slice by_ K (pandas_table T) = pandas_table (M_SqlLeaf.group by_ (List.map Some K) T).
Proof. unfold slice, pandas_table, M_SqlLeaf.group. rewrite filter_map_comm. f_equal. apply filter_ext. intros r. apply has_key_pandas. Qed.
Lemma group_In (by_ : list string) k (T : stable) r : In r (M_SqlLeaf.group by_ k T) <-> In r T /\ srow_key by_ r = k.
Proof. unfold M_SqlLeaf.group. rewrite filter_In. destruct (skey_dec (srow_key by_ r) k); intuition congruence. Qed.

(** Labels in the columns [by_], numbers in y and x. *)
Definition labelled_rows (by_ : list string) (T : stable) : Prop := forall r c, In r T -> In c by_ -> slab r c <> None.
Definition numbered (c : string) (T : stable) : Prop := forall r, In r T -> exists u, snum r c = Some u.
Lemma numbered_complete c T : numbered c T -> complete (Col c) (pandas_table T).
Proof. intros H. apply Forall_forall. intros r' Hr. apply in_map_iff in Hr as (r & <- & Hr). destruct (H r Hr) as [u Hu]. exists u. cbn. now rewrite Hu. Qed.

Section Centered.
  Variables (parse : string -> cond) (s : list string) (x : string) (T : stable).
  Hypothesis HL : labelled_rows s T.
  Lemma avg_pandas rows : fetch (sagg_value parse (AVG (AIf [] (Col x))) rows) = agg_mean x (pandas_table rows).
  Proof. exact (leaf_fetch parse (Lf (LMean (Col x) None)) rows I I I). Qed.
  Lemma centered_pandas : pandas_table (centered_sql parse s x T) = centered s x (pandas_table T).
  Proof.
    unfold centered, centered_sql, pandas_table at 1 3. rewrite !map_map. apply map_ext_in. intros r Hr. unfold pandas_row at 1, set_val. cbn [slab snum]. f_equal. apply functional_extensionality. intros c.
    destruct (String.eqb_spec c x) as [->|]; [|reflexivity]. rewrite sub_fetch, avg_pandas. f_equal. unfold split_mean.
    destruct (srow_key_labels s r) as [k Ek]; [intros c Hc; exact (HL r c Hr Hc)|]. pose proof Ek as Ek'. apply row_key_pandas in Ek'. rewrite Ek', Ek. now rewrite slice_group.
  Qed.
  Lemma centered_labelled by_ : labelled_rows by_ T -> labelled_rows by_ (centered_sql parse s x T).
  Proof. intros H r' c Hr Hc. apply in_map_iff in Hr as (r & <- & Hr). cbn. now apply H. Qed.
  Lemma centered_numbered c : numbered x T -> numbered c T -> numbered c (centered_sql parse s x T).
  Proof.
    intros Hx Hc r' Hr. apply in_map_iff in Hr as (r & <- & Hr). cbn [snum]. destruct (Hc r Hr) as [u Hu]. destruct (String.eqb c x) eqn:E; [|eauto]. rewrite Hu.
    cbn [sagg_value]. set (l := inputs parse (AIf [] (Col x)) (M_SqlLeaf.group s (srow_key s r) T)). assert (l <> []) as Hl.
    { destruct (Hx r Hr) as [v Hv]. assert (In v l) as Hi; [|intros E0; rewrite E0 in Hi; destruct Hi]. unfold l, inputs. clear l.
      assert (In (Some v) (List.map (sarg parse (AIf [] (Col x))) (M_SqlLeaf.group s (srow_key s r) T))) as Hi.
      { apply in_map_iff. exists r. split; [exact Hv|]. apply group_In. auto. }
      revert Hi. generalize (List.map (sarg parse (AIf [] (Col x))) (M_SqlLeaf.group s (srow_key s r) T)). intros l. induction l as [|[w|] l IH]; cbn; [tauto| |].
      - intros [E0|Hi]; [left; congruence|right; auto].
      - intros [E0|Hi]; [discriminate|auto]. }
    unfold unless_fewer. destruct l; [congruence|]. cbn [List.length Nat.ltb Nat.leb lift2]. eauto.
  Qed.
End Centered.
Lemma split_mean_perm s x A B r : Permutation A B -> split_mean s x A r = split_mean s x B r.
Proof. intros H. unfold split_mean. destruct (row_key s r); [|reflexivity]. unfold agg_mean, column. apply xmean_perm, Permutation_map, slice_perm, H. Qed.
Lemma centered_perm s x A B : Permutation A B -> Permutation (centered s x A) (centered s x B).
Proof.
  intros H. unfold centered. rewrite (map_ext (fun r => set_val x (xsub (val r x) (split_mean s x A r)) r) (fun r => set_val x (xsub (val r x) (split_mean s x B r)) r)).
  - now apply Permutation_map.
  - intros r. now rewrite (split_mean_perm s x A B r H).
Qed.

(** What C62 asks for. *)
Section Fit.
  Variables (parse : string -> cond) (y x : string).
  Lemma ratio_fits rows : numbered y rows -> numbered x rows -> sexpr_value parse (XAgg (VAR_SAMP (AIf [] (Col x)))) rows = Some 0%R ->
    sexpr_value parse (XAgg (COVAR_SAMP (AIf [] (Col y)) (AIf [] (Col x)))) rows = Some 0%R.
  Proof.
    intros Hy Hx H. pose proof (numbered_complete _ _ Hy) as Cy. pose proof (numbered_complete _ _ Hx) as Cx.
    pose proof (leaf_fetch parse (Lf (LVar (Col x) 1 None)) rows (or_intror eq_refl) I I) as V. pose proof (leaf_fetch parse (Lf (LCov (Col y) (Col x) 1 None None)) rows I I) as C. 
    cbn [pandas_leaf] in V, C. change (sql_leaf (Lf (LVar (Col x) 1 None)) []) with (XAgg (VAR_SAMP (AIf [] (Col x)))) in V. change (sql_leaf (Lf (LCov (Col y) (Col x) 1 None None)) []) with (XAgg (COVAR_SAMP (AIf [] (Col y)) (AIf [] (Col x)))) in C.
    rewrite H in V. cbn [fetch] in V. destruct (le_lt_dec (List.length (pandas_table rows)) 1) as [L|L]; [rewrite var_one in V by assumption; discriminate|].
    rewrite var_fin in V by assumption. rewrite cov_fin in C by assumption. injection V as V. assert (cross (at_ (Col x)) (at_ (Col x)) (pandas_table rows) = 0%R) as Z.
    { apply lt_INR in L. cbn in L. symmetry in V. unfold Rdiv in V. apply Rmult_integral in V. destruct V as [V|V]; [exact V|]. exfalso. revert V. apply Rinv_neq_0_compat. unfold size. lra. }
    rewrite (cross_zero y x _ Z) in C. unfold Rdiv in C. rewrite Rmult_0_l in C. assert (cov_same_nulls (Lf (LCov (Col y) (Col x) 1 None None)) rows) as N.
    { intros r Hr. cbn. destruct (Hy r Hr) as [u ->], (Hx r Hr) as [v ->]. split; discriminate. }
    specialize (C N). destruct (sexpr_value parse (XAgg (COVAR_SAMP (AIf [] (Col y)) (AIf [] (Col x)))) rows) as [c|]; [injection C as ->; reflexivity|discriminate C].
  Qed.
  Lemma fit_leaves m by_ T : labelled_rows by_ T ->
    (forall l fs, In (l, fs) (leaves_with_filters [] m) -> supported l /\ fs = [] /\ forall rows, incl rows T -> cov_same_nulls l rows) ->
    (forall rows, incl rows T -> fits parse (sql_column [] [] m) rows) ->
    leaf_fits parse [] m [] [] by_ T.
  Proof.
    intros HT Hl Hf. split; [|split].
    - intros l fs H. destruct (Hl l fs H) as (H1 & -> & _). split; [exact H1|]. split; [intros []|intros f r []].
    - intros r c Hr _ Hc. now apply HT.
    - intros k Hk. split.
      + intros l fs H. destruct (Hl l fs H) as (_ & -> & H3). split; [|apply H3; intros r Hr; apply filter_In in Hr; tauto].
        destruct Hk as [Hk|(r & Hr & _ & Ek)]; [auto|right]. intros E. assert (In r (used_rows parse by_ k [] T)) as Hi; [|rewrite E in Hi; destruct Hi].
        apply filter_In. split; [exact Hr|]. change (spass parse [] r) with true. cbn. destruct (skey_dec _ _); congruence.
      + apply Hf. intros r Hr. apply group_In in Hr as [Hr _]. apply filter_In in Hr. tauto.
  Qed.
  Lemma cov_nulls rows T : incl rows T -> numbered y T -> numbered x T -> cov_same_nulls (Lf (LCov (Col y) (Col x) 1 None None)) rows.
  Proof. intros Hi Hy Hx r Hr. cbn. destruct (Hy r (Hi r Hr)) as [u ->], (Hx r (Hi r Hr)) as [v ->]. split; discriminate. Qed.
  Lemma theta_fits by_ T : labelled_rows by_ T -> numbered y T -> numbered x T -> leaf_fits parse [] (theta_sql_metric y x) [] [] by_ T.
  Proof.
    intros HT Hy Hx. apply fit_leaves; [exact HT| |].
    - intros l fs H. cbn in H. repeat match type of H with _ \/ _ => destruct H as [H|H] | False => destruct H end; injection H as <- <-; (split; [cbn; auto|split; [reflexivity|]]); intros rows Hi; try exact I. eapply cov_nulls; eauto.
    - intros rows Hi. change (sql_column [] [] (theta_sql_metric y x)) with (XDiv (XAgg (COVAR_SAMP (AIf [] (Col y)) (AIf [] (Col x)))) (XAgg (VAR_SAMP (AIf [] (Col x))))).
      split; [exact I|]. split; [exact I|]. intros E. right. apply ratio_fits; [intros r Hr; auto..|exact E].
  Qed.
  Lemma prepost_fits by_ T : labelled_rows by_ T -> numbered y T -> numbered x T -> leaf_fits parse [] (prepost_metric y x) [] [] by_ T.
  Proof.
    intros HT Hy Hx. apply fit_leaves; [exact HT| |].
    - intros l fs H. cbn in H. repeat match type of H with _ \/ _ => destruct H as [H|H] | False => destruct H end; injection H as <- <-; (split; [cbn; auto|split; [reflexivity|]]); intros rows Hi; try exact I. eapply cov_nulls; eauto.
    - intros rows Hi. change (sql_column [] [] (prepost_metric y x)) with (XSub (XAgg (AVG (AIf [] (Col y)))) (XDiv (XMul (XAgg (AVG (AIf [] (Col x)))) (XAgg (COVAR_SAMP (AIf [] (Col y)) (AIf [] (Col x))))) (XAgg (VAR_SAMP (AIf [] (Col x)))))).
      split; [exact I|]. split; [split; exact I|]. split; [exact I|]. intros E. apply ratio_fits in E; [|intros r Hr; auto..]. cbn [sexpr_value]. cbn [sexpr_value] in E. rewrite E.
      destruct (sagg_value parse (AVG (AIf [] (Col x))) rows); [right|left; reflexivity]. cbn. f_equal. lra.
  Qed.
  Lemma cuped_fits by_ T : labelled_rows by_ T -> leaf_fits parse [] (cuped_metric y x) [] [] by_ T.
  Proof.
    intros HT. apply fit_leaves; [exact HT| |].
    - intros l fs H. cbn in H. repeat match type of H with _ \/ _ => destruct H as [H|H] | False => destruct H end; injection H as <- <-; (split; [cbn; auto|split; [reflexivity|]]); intros rows Hi; exact I.
    - intros rows Hi. split; exact I.
  Qed.
End Fit.

(** The comparison by C62. *)
Section Change.
  Variables (parse : string -> cond) (srt : list okey -> list env -> list env) (psort : cum_how -> bool -> nat -> rframe -> rframe).
  Hypothesis Hdb : db_sorts srt.
  Hypothesis Hps : pandas_sorts psort.
  Variables (p : bool) (s conds base : list string) (include : bool) (m : metric) (y : string) (T : stable).
  Let change := OChange p conds base include (OLeaf m y) [].
  Lemma change_by : conds <> [] -> List.length base = List.length conds -> NoDup (s ++ conds) -> ~ In y (s ++ conds) -> ~ In (value_name change) (s ++ conds) ->
    get_global_filter (ofilter_tree change) = [] -> leaf_fits parse [] m [] [] (s ++ conds) T ->
    change_fits p (List.length s) base (compute parse m (s ++ conds) (pandas_table T)) ->
    exists result, (if p then percent_change else absolute_change) (List.length s) (List.length conds) base include (compute parse m (s ++ conds) (pandas_table T)) = Some result /\
      same_rows (shown (s ++ conds) (value_name change) (run_sql parse srt (op_to_sql change s) T)) result.
  Proof.
    intros H1 H2 H3 H4 H5 H6 H7 H8. destruct (C62_same_rows parse srt psort T change s) as (result & E & R); auto.
    - cbn [change supported_tree extra_idx]. rewrite !app_nil_r. auto 10.
    - intros metric above loc by' Hb. cbv zeta in Hb. rewrite H6 in Hb |- *. cbn [change bottoms] in Hb. destruct Hb as [Hb|[]]. injection Hb as <- <- <- <-. exact H7.
    - cbn [change tree_fits]. cbv zeta. rewrite filter_nothing. split; [exact I|]. intros fr Hfr. cbn [op_compute] in Hfr. injection Hfr as <-. exact H8.
    - exists result. cbn [change op_compute] in E. rewrite filter_nothing in E. split; [exact E|]. change (extra_idx change) with (conds ++ []) in R. now rewrite app_nil_r in R.
  Qed.
End Change.
