(** Lemmas for C67: mixed mode. *)
From Coq Require Import Reals List Bool String Permutation Sorted Lia.
From Verif Require Import M_Num M_Frame L_Frame M_Leaf M_Ops M_SqlGlobal M_SqlLeaf S_SqlLeaf L_SqlLeaf L_SqlLeaf2 M_SqlOps M_SqlList M_SqlMH M_SqlMixed S_SqlMixed.
Import ListNotations.
Open Scope list_scope.

Lemma read_some k : read_key (List.map Some k) = k.
Proof. unfold read_key. rewrite map_map. apply map_id. Qed.
Lemma insert_row_perm x l : Permutation (insert_row x l) (x :: l).
Proof.
  induction l as [|y l IH]; cbn; [reflexivity|]. destruct (key_cmp (fst x) (fst y)); try reflexivity.
  rewrite IH. apply perm_swap.
Qed.
Lemma sort_rows_perm l : Permutation (sort_rows l) l.
Proof. induction l as [|x l IH]; cbn; [reflexivity|]. rewrite insert_row_perm. now constructor. Qed.
Lemma insert_row_sorted x l : ksorted (List.map fst l) -> ~ In (fst x) (List.map fst l) -> ksorted (List.map fst (insert_row x l)).
Proof.
  induction l as [|y l IH]; cbn; intros Hs Hn; [repeat constructor|].
  inversion Hs as [|? ? H1 H2]; subst. destruct (key_cmp (fst x) (fst y)) eqn:E; cbn.
  - apply key_cmp_eq in E. exfalso. apply Hn. now left.
  - constructor; [exact Hs|]. constructor; [exact E|]. eapply Forall_impl; [|exact H2]. intros z Hz. eapply key_cmp_trans; eauto.
  - constructor; [apply IH; auto|]. apply Forall_forall. intros z Hz.
    apply (Permutation_in _ (Permutation_map fst (insert_row_perm x l))) in Hz. cbn in Hz. destruct Hz as [<-|Hz].
    + unfold klt. now rewrite key_cmp_anti, E.
    + rewrite Forall_forall in H2. auto.
Qed.
Lemma sort_rows_sorted l : NoDup (List.map fst l) -> ksorted (List.map fst (sort_rows l)).
Proof.
  induction l as [|x l IH]; cbn; intros H; [constructor|]. inversion H as [|? ? H1 H2]; subst.
  apply insert_row_sorted; [now apply IH|]. intros Hi. apply H1. now apply (Permutation_in _ (Permutation_map fst (sort_rows_perm l))).
Qed.
Lemma frame_ext (a b : rframe) : ksorted (List.map fst a) -> ksorted (List.map fst b) -> (forall x, In x a <-> In x b) -> a = b.
Proof.
  intros Ha Hb E.
  assert (List.map fst a = List.map fst b) as EK.
  { apply ksorted_ext; auto. intros k. rewrite !in_map_iff. split; intros (x & Hx & Hi); exists x; (split; [exact Hx|]); now apply E. }
  assert (forall fr : rframe, NoDup (List.map fst fr) -> fr = List.map (fun k => (k, lookup k fr)) (List.map fst fr)) as HL.
  { intros fr Hf. rewrite map_map. rewrite <- (map_id fr) at 1. apply map_ext_in. intros [k v] Hi. cbn. f_equal. symmetry. now apply lookup_In. }
  pose proof (ksorted_NoDup _ Ha) as Na. pose proof (ksorted_NoDup _ Hb) as Nb.
  rewrite (HL a Na), (HL b Nb), EK. apply map_ext_in. intros k Hk. f_equal.
  rewrite <- EK in Hk. apply in_map_iff in Hk as ([k' v] & Hk' & Hi). cbn in Hk'. subst k'.
  rewrite (lookup_In k v a Na Hi). symmetry. apply lookup_In; [exact Nb|]. now apply E.
Qed.

Section P.
  Variable parse : string -> cond.
  Variable dbo : query -> list (skey * option R) -> list (skey * option R).
  Variable psort : cum_how -> bool -> nat -> rframe -> rframe.
  Hypothesis Hdb : some_order dbo.

  Lemma pandas_filter w (t : stable) : (forall f r, In f w -> In r t -> same_verdict (parse f) r) ->
    filter (pfilters parse w) (pandas_table t) = pandas_table (sub_table parse w t).
  Proof.
    intros Hv. unfold pandas_table, sub_table. rewrite filter_map_comm. f_equal. apply filter_ext_in. intros r Hr. apply verdict_filters. intros f Hf. now apply Hv.
  Qed.
  Lemma sub_sub a w t : sub_table parse w (sub_table parse a t) = sub_table parse (a ++ w) t.
  Proof. unfold sub_table. rewrite filter_filter. apply filter_ext. intros r. now rewrite spass_app. Qed.
  Lemma sub_nil t : sub_table parse [] t = t.
  Proof. unfold sub_table. induction t as [|r t IH]; cbn; [reflexivity|]. now rewrite IH. Qed.
  Lemma used_sub by_ k above w t : used_rows parse by_ k w (sub_table parse above t) = used_rows parse by_ k (above ++ w) t.
  Proof. unfold used_rows, sub_table. rewrite filter_filter. apply filter_ext. intros r. rewrite spass_app. now rewrite andb_assoc. Qed.

  Lemma leaf_column_nil l w by_ : q_col (to_sql (MLeaf l w) by_) = sql_leaf l [].
  Proof.
    unfold to_sql. cbn [q_col sql_column]. f_equal.
    change (get_global_filter (filter_tree (MLeaf l w))) with (add [] w). change (add (add [] w) []) with (add [] w).
    unfold remove. generalize (add [] w) as g. intros g.
    assert (forall h : list string, (forall x, In x h -> In x g) -> filter (fun c => negb (mem c g)) h = []) as HH; [|now apply HH].
    induction h as [|x h IH]; intros Hi; [reflexivity|]. cbn. assert (mem x g = true) as ->.
    { apply existsb_exists. exists x. split; [apply Hi; now left|apply String.eqb_refl]. }
    apply IH. intros y Hy. apply Hi. now right.
  Qed.
  Lemma map_Some_inj (a b : list string) : List.map Some a = List.map Some b -> a = b.
  Proof. intros H. rewrite <- (read_some a), <- (read_some b). now rewrite H. Qed.
  Lemma leaf_equal t above l w by_ : mixed_leaf_fits parse t (l, above, w, by_) ->
    sql_leaf_frame parse dbo l w by_ (sub_table parse above t) = compute parse (MLeaf l w) by_ (pandas_table (sub_table parse above t)).
  Proof.
    intros (Hs & Hn & Hv & Hl & Hf). set (t' := sub_table parse above t).
    destruct (leaf_whole parse t' l w by_) as [W1 W2].
    - exact Hs.
    - intros H. apply Hn, in_or_app. now right.
    - intros f r Hf' Hr. apply filter_In in Hr as [Hr _]. apply Hv; [apply in_or_app; now right|exact Hr].
    - intros r c Hr Hp Hc. apply filter_In in Hr as [Hr Ha]. apply Hl; auto. now rewrite spass_app, Ha, Hp.
    - intros k. unfold t'. rewrite used_sub, leaf_column_nil. apply Hf.
    - unfold sql_leaf_frame. set (q := to_sql (MLeaf l w) by_) in *. set (res := List.map _ _).
      assert (forall k v, In (k, v) res <-> exists u, v = fetch u /\ In (List.map Some k, u) (run_query parse q t')) as HI.
      { intros k v. unfold res. rewrite in_map_iff. split.
        - intros ([sk u] & E & Hi). cbn in E. injection E as <- <-. apply (Permutation_in _ (Hdb q _)) in Hi. destruct (W2 sk u Hi) as (k & ->).
          exists u. split; [reflexivity|]. now rewrite read_some.
        - intros (u & -> & Hi). exists (List.map Some k, u). split; [cbn; now rewrite read_some|]. now apply (Permutation_in _ (Permutation_sym (Hdb q _))). }
      assert (NoDup (List.map fst res)) as HN.
      { assert (List.map fst res = List.map read_key (List.map fst (dbo q (run_query parse q t')))) as -> by (unfold res; now rewrite !map_map).
        assert (NoDup (List.map fst (dbo q (run_query parse q t')))) as HD.
        { apply (Permutation_NoDup (Permutation_map fst (Permutation_sym (Hdb q _)))). apply run_NoDup. }
        assert (forall sk, In sk (List.map fst (dbo q (run_query parse q t'))) -> exists k, sk = List.map Some k) as HK.
        { intros sk Hk. apply in_map_iff in Hk as ([sk' u] & <- & Hi). apply (Permutation_in _ (Hdb q _)) in Hi. exact (W2 _ _ Hi). }
        revert HD HK. generalize (List.map fst (dbo q (run_query parse q t'))) as L. induction L as [|x L IH]; intros HD HK; cbn; [constructor|].
        inversion HD as [|? ? D1 D2]; subst. constructor; [|apply IH; auto; intros sk Hsk; apply HK; now right].
        intros Hi. apply in_map_iff in Hi as (y & Ey & Hy). apply D1. destruct (HK x (or_introl eq_refl)) as (kx & ->). destruct (HK y (or_intror Hy)) as (ky & ->).
        rewrite !read_some in Ey. now subst. }
      assert (forall x, In x res <-> In x (compute parse (MLeaf l w) by_ (pandas_table t'))) as HE by (intros [k v]; now rewrite HI, W1).
      destruct by_ as [|c by_].
      + (* one row *)
        cbn [compute compute_leaf group_keys] in *. unfold compute_leaf, group_keys in *. cbn [List.map] in *.
        set (v := pandas_leaf l _) in *. 
        destruct res as [|x [|y res']] eqn:Er.
        * exfalso. apply (HE ([], v)). now left.
        * f_equal. destruct (proj1 (HE x) (or_introl eq_refl)) as [H|[]]. now symmetry.
        * exfalso. destruct (proj1 (HE x) (or_introl eq_refl)) as [Hx|[]]. destruct (proj1 (HE y) (or_intror (or_introl eq_refl))) as [Hy|[]]. subst. inversion HN as [|? ? N1 _]; subst. apply N1. cbn. auto.
      + apply frame_ext.
        * now apply sort_rows_sorted.
        * cbn [compute]. unfold compute_leaf. rewrite map_fst_pair. unfold group_keys. apply sort_uniq_sorted.
        * intros x. rewrite <- HE. split; apply Permutation_in; [|symmetry]; apply sort_rows_perm.
  Qed.

  Lemma metric_equal m : forall above by_ t, (forall x, In x (metric_leaves m above by_) -> mixed_leaf_fits parse t x) ->
    mixed_metric parse dbo m by_ (sub_table parse above t) = compute parse m by_ (pandas_table (sub_table parse above t)).
  Proof.
    assert (forall (m : metric) above by_ t, (forall x, In x (metric_leaves m above by_) -> mixed_leaf_fits parse t x) -> forall f r, In f above -> In r t -> same_verdict (parse f) r) as HV.
    { clear m. induction m as [l w|op a IHa b IHb w|op x a IHa w|op a IHa x w|a IHa w|a IHa w]; intros above by_ t Hx f r Hf Hr; cbn [metric_leaves] in Hx.
      - destruct (Hx _ (or_introl eq_refl)) as (_ & _ & Hv & _). apply Hv; [apply in_or_app; now left|exact Hr].
      - apply (IHa (above ++ w) by_ t); auto; [intros y Hy; apply Hx, in_or_app; now left|apply in_or_app; now left].
      - apply (IHa (above ++ w) by_ t); auto. apply in_or_app; now left.
      - apply (IHa (above ++ w) by_ t); auto. apply in_or_app; now left.
      - apply (IHa (above ++ w) by_ t); auto. apply in_or_app; now left.
      - apply (IHa (above ++ w) by_ t); auto. apply in_or_app; now left. }
    assert (forall (m : metric) above w by_ t, (forall x, In x (metric_leaves m (above ++ w) by_) -> mixed_leaf_fits parse t x) ->
      filter (pfilters parse w) (pandas_table (sub_table parse above t)) = pandas_table (sub_table parse (above ++ w) t)) as HF.
    { intros m0 above w by_ t Hx. rewrite <- sub_sub. apply pandas_filter. intros f r Hf Hr. apply filter_In in Hr as [Hr _]. apply (HV m0 (above ++ w) by_ t); auto. apply in_or_app. now right. }
    induction m as [l w|op a IHa b IHb w|op x a IHa w|op a IHa x w|a IHa w|a IHa w]; intros above by_ t Hx; cbn [metric_leaves mixed_metric compute] in *.
    - apply leaf_equal. apply Hx. now left.
    - assert (forall x, In x (metric_leaves a (above ++ w) by_) -> mixed_leaf_fits parse t x) as Ha by (intros y Hy; apply Hx, in_or_app; now left).
      assert (forall x, In x (metric_leaves b (above ++ w) by_) -> mixed_leaf_fits parse t x) as Hb by (intros y Hy; apply Hx, in_or_app; now right).
      cbv zeta. rewrite (HF a above w by_ t Ha), sub_sub, IHa, IHb by assumption. reflexivity.
    - rewrite (HF a above w by_ t Hx), sub_sub, IHa by assumption. reflexivity.
    - rewrite (HF a above w by_ t Hx), sub_sub, IHa by assumption. reflexivity.
    - rewrite (HF a above w by_ t Hx), sub_sub, IHa by assumption. reflexivity.
    - rewrite (HF a above w by_ t Hx), sub_sub, IHa by assumption. reflexivity.
  Qed.
  Lemma metric_verdict (m : metric) : forall above by_ t, (forall x, In x (metric_leaves m above by_) -> mixed_leaf_fits parse t x) -> forall f r, In f above -> In r t -> same_verdict (parse f) r.
  Proof.
    induction m as [l w|op a IHa b IHb w|op x a IHa w|op a IHa x w|a IHa w|a IHa w]; intros above by_ t Hx f r Hf Hr; cbn [metric_leaves] in Hx.
    1: destruct (Hx _ (or_introl eq_refl)) as (_ & _ & Hv & _); apply Hv; [apply in_or_app; now left|exact Hr].
    1: apply (IHa (above ++ w) by_ t); auto; [intros y Hy; apply Hx, in_or_app; now left|apply in_or_app; now left].
    all: apply (IHa (above ++ w) by_ t); auto; apply in_or_app; now left.
  Qed.
  Lemma tree_verdict m : forall above by_ t, mixed_fits parse m above by_ t -> forall f r, In f above -> In r t -> same_verdict (parse f) r.
  Proof.
    induction m as [m name|over c IH w|over how asc c IH w|p cond base ib c IH w|d over c IH w|op a IHa b IHb name w|op x c IH name w|op c IH x name w]; intros above by_ t Hx f r Hf Hr; unfold mixed_fits in Hx; cbn [tree_leaves] in Hx.
    1: now apply (metric_verdict m above by_ t).
    5: apply (IHa (above ++ w) by_ t); auto; [intros y Hy; apply Hx, in_or_app; now left|apply in_or_app; now left].
    1-4: eapply IH; [exact Hx|apply in_or_app; now left|exact Hr].
    all: eapply IH; [exact Hx|apply in_or_app; now left|exact Hr].
  Qed.
  Lemma tree_filter m above w by_ t : mixed_fits parse m (above ++ w) by_ t ->
    filter (pfilters parse w) (pandas_table (sub_table parse above t)) = pandas_table (sub_table parse (above ++ w) t).
  Proof. intros Hx. rewrite <- sub_sub. apply pandas_filter. intros f r Hf Hr. apply filter_In in Hr as [Hr _]. apply (tree_verdict m (above ++ w) by_ t); auto. apply in_or_app. now right. Qed.
  Theorem tree_equal m : forall above by_ t, mixed_fits parse m above by_ t ->
    mixed parse dbo psort m by_ (sub_table parse above t) = op_compute parse psort m by_ (pandas_table (sub_table parse above t)).
  Proof.
    induction m as [m name|over c IH w|over how asc c IH w|p cond base ib c IH w|d over c IH w|op a IHa b IHb name w|op x c IH name w|op c IH x name w]; intros above by_ t Hx; cbn [mixed op_compute]; cbv zeta.
    - f_equal. now apply metric_equal.
    - rewrite (tree_filter c above w (by_ ++ over) t Hx), sub_sub, (IH (above ++ w) (by_ ++ over) t Hx). reflexivity.
    - rewrite (tree_filter c above w (by_ ++ over) t Hx), sub_sub, (IH (above ++ w) (by_ ++ over) t Hx). reflexivity.
    - rewrite (tree_filter c above w (by_ ++ cond) t Hx), sub_sub, (IH (above ++ w) (by_ ++ cond) t Hx). reflexivity.
    - rewrite (tree_filter c above w (by_ ++ over) t Hx), sub_sub, (IH (above ++ w) (by_ ++ over) t Hx). reflexivity.
    - assert (mixed_fits parse a (above ++ w) by_ t) as Ha by (intros y Hy; apply Hx; cbn [tree_leaves]; apply in_or_app; now left).
      assert (mixed_fits parse b (above ++ w) by_ t) as Hb by (intros y Hy; apply Hx; cbn [tree_leaves]; apply in_or_app; now right).
      rewrite (tree_filter a above w by_ t Ha), sub_sub, (IHa (above ++ w) by_ t Ha), (IHb (above ++ w) by_ t Hb). reflexivity.
    - rewrite (tree_filter c above w by_ t Hx), sub_sub, (IH (above ++ w) by_ t Hx). reflexivity.
    - rewrite (tree_filter c above w by_ t Hx), sub_sub, (IH (above ++ w) by_ t Hx). reflexivity.
  Qed.
End P.
