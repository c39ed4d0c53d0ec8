(** A table of sums from which the metric computes what it computes from the data: whole results. *)
From Coq Require Import Reals List Bool String Arith ZArith Permutation Sorted Lia Lra.
From Verif Require Import M_Num M_Frame L_Frame M_Leaf M_Ops S_Ops M_SqlGlobal S_SqlGlobal L_SqlGlobal M_SqlLeaf S_SqlLeaf L_SqlLeaf L_SqlLeaf2 M_SqlOps S_SqlOps L_SqlOps L_SqlOps7 M_SqlJackknife S_SqlJackknife L_SqlJack1 L_SqlJack4 L_SqlJack5 M_SqlJackFast L_SqlSummary.
Import ListNotations.
Open Scope string_scope.
Open Scope list_scope.

Section Sum.
  Variable parse : string -> cond.
  Variable psort : cum_how -> bool -> nat -> rframe -> rframe.
  Variable name : leaf -> list string -> string.

  (** [T'] has, in its columns, the sums of [T] per group of [by_]. *)
  Definition summary (by_ : list string) (lvs : list (leaf * list string)) (T T' : stable) : Prop :=
    (forall r c, In r T' -> In c by_ -> slab r c <> None) /\
    (forall K, (exists r, In r T /\ srow_key by_ r = List.map Some K) <-> (exists r, In r T' /\ srow_key by_ r = List.map Some K)) /\
    (forall l fs K v, In (l, fs) lvs -> (exists r, In r T /\ srow_key by_ r = List.map Some K) ->
       leaf_column parse l fs (M_SqlLeaf.group by_ (List.map Some K) T) = Some v -> sum_of parse (name l fs) (M_SqlLeaf.group by_ (List.map Some K) T') = Some v).

  Lemma metric_push by_ (df df' : table) m : forall above,
    (forall l fs, In (l, fs) (leaves_with_filters above m) -> compute_leaf (pandas_leaf l) by_ (filter (pfilters parse fs) df) = compute_leaf (pandas_leaf (Lf (LSum (Col (name l fs))))) by_ df') ->
    compute parse (push_metric name above m) by_ df' = compute parse m by_ (filter (pfilters parse above) df).
  Proof.
    induction m as [l w|op a IHa b IHb w|op x a IHa w|op a IHa x w|a IHa w|a IHa w]; intros above H; cbn [compute push_metric leaves_with_filters] in *; rewrite (no_filters parse df'), filter_pfilters_app.
    - symmetry. apply H. now left.
    - cbn zeta. rewrite IHa, IHb; [reflexivity| |]; intros l fs Hi; apply H, in_or_app; auto.
    - rewrite IHa; auto.
    - rewrite IHa; auto.
    - rewrite IHa; auto.
    - rewrite IHa; auto.
  Qed.
  Lemma leaf_pandas l fs rows v : sum_or_count_leaf l -> leaf_column parse l fs rows = Some v -> pandas_leaf l (pandas_table (filter (spass parse fs) rows)) = Fin v.
  Proof.
    intros (c & [-> | ->]); cbn [leaf_column sagg_value]; rewrite inputs_if, inputs_nil; cbn [pandas_leaf]; unfold leaf_value; cbn [native].
    - unfold unless_fewer. destruct (Nat.ltb _ 1); [discriminate|]. intros H. injection H as <-. rewrite col_fetch. apply xsum_fetch.
    - intros H. injection H as <-. rewrite col_fetch. rewrite count_fetch. reflexivity.
  Qed.
  Lemma slice_pandas by_ K T : slice by_ K (pandas_table T) = pandas_table (M_SqlLeaf.group by_ (List.map Some K) T).
  Proof. unfold slice, pandas_table, M_SqlLeaf.group. rewrite filter_map_comm. f_equal. apply filter_ext. intros r. apply has_key_pandas. Qed.

  Section Bottom.
    Variables (b : metric) (ab lc by_ : list string) (T T' : stable).
    Hypothesis Hlc : ~ In "" lc /\ forall r, spass parse lc r = spass parse ab r.
    Hypothesis Hfit : leaf_fits parse [] b ab lc by_ T.
    Hypothesis Hne : T <> [].
    Hypothesis Hkind : forall l fs, In (l, fs) (leaves_with_filters ab b) -> sum_or_count_leaf l.
    Hypothesis Hsum : summary by_ (leaves_with_filters ab b) T T'.
    Lemma here K : ((by_ = [] /\ K = []) \/ (exists r, In r T /\ srow_key by_ r = List.map Some K)) <-> exists r, In r T /\ srow_key by_ r = List.map Some K.
    Proof. split; [intros [[-> ->]|H]; [|exact H]|auto]. destruct T as [|r T0]; [now destruct Hne|]. exists r. split; [now left|reflexivity]. Qed.
    Lemma columns K : (exists r, In r T /\ srow_key by_ r = List.map Some K) ->
      fits parse (sql_column [] [] (push_metric name ab b)) (M_SqlLeaf.group by_ (List.map Some K) T') /\
      forall l fs, In (l, fs) (leaves_with_filters ab b) -> exists v, leaf_column parse l fs (M_SqlLeaf.group by_ (List.map Some K) T) = Some v /\ sum_of parse (name l fs) (M_SqlLeaf.group by_ (List.map Some K) T') = Some v.
    Proof.
      intros HK. destruct Hfit as (H1 & H2 & H3). destruct (H3 K) as [_ Hf].
      { right. destruct HK as (r & Hr & E). exists r. split; [exact Hr|]. split; [reflexivity|exact E]. }
      rewrite spass_nil in Hf. destruct Hsum as (_ & _ & Hs). destruct Hlc as [L1 L2].
      destruct (push_fits parse name b ab lc (M_SqlLeaf.group by_ (List.map Some K) T) (M_SqlLeaf.group by_ (List.map Some K) T') L1 L2) as (P1 & _ & P3); [|exact Hf|].
      - intros l fs Hl. split; [now apply Hkind with fs|]. split; [now apply (H1 l fs Hl)|]. intros v. now apply Hs.
      - split; [exact P1|]. intros l fs Hl. destruct (P3 l fs Hl) as (v & Ev). exists v. split; [exact Ev|]. now apply (Hs l fs K v Hl HK).
    Qed.
    Lemma leaf_same l fs : In (l, fs) (leaves_with_filters ab b) ->
      compute_leaf (pandas_leaf l) by_ (filter (pfilters parse fs) (pandas_table T)) = compute_leaf (pandas_leaf (Lf (LSum (Col (name l fs))))) by_ (pandas_table T').
    Proof.
      intros Hl. destruct Hfit as (H1 & H2 & H3). destruct (H1 l fs Hl) as (_ & _ & Hv).
      assert (filter (pfilters parse fs) (pandas_table T) = pandas_table (filter (spass parse fs) T)) as EF.
      { unfold pandas_table. rewrite filter_map_comm. f_equal. apply filter_ext_in. intros r Hr. apply verdict_filters. intros f Hf. now apply Hv. }
      rewrite EF. unfold compute_leaf.
      assert (forall K T0, In K (group_keys by_ (pandas_table T0)) <-> (by_ = [] /\ K = []) \/ (by_ <> [] /\ exists r, In r T0 /\ srow_key by_ r = List.map Some K)) as HG.
      { intros K T0. rewrite L_SqlLeaf2.group_keys_In. split; (intros [H|[Hb (r & Hr & Hk)]]; [now left|]); right; (split; [exact Hb|]).
        - unfold pandas_table in Hr. apply in_map_iff in Hr as (r0 & <- & Hr). exists r0. split; [exact Hr|]. now apply row_key_pandas.
        - exists (pandas_row r). split; [now apply in_map|]. now apply row_key_pandas. }
      assert (forall K, (exists r, In r T /\ srow_key by_ r = List.map Some K) -> (by_ = [] /\ K = []) \/ exists r, In r (filter (spass parse fs) T) /\ srow_key by_ r = List.map Some K) as HU.
      { intros K (r & Hr & E). destruct (H3 K) as [Hx _]; [right; exists r; split; [exact Hr|]; split; [reflexivity|exact E]|]. destruct (Hx l fs Hl) as [[H|H] _]; [now left|right].
        apply used_nonempty in H as (r' & Hr' & Hp & E'). exists r'. rewrite filter_In. auto. }
      assert (group_keys by_ (pandas_table (filter (spass parse fs) T)) = group_keys by_ (pandas_table T')) as EK.
      { destruct (list_eq_dec string_dec by_ []) as [->|Hb]; [reflexivity|]. pose proof (fun K => HG K T') as HG'. pose proof (fun K => HG K (filter (spass parse fs) T)) as HG''. revert HG' HG''. unfold group_keys. destruct by_ as [|c cs] eqn:Eb; [congruence|]. intros HG' HG''.
        apply ksorted_ext; [apply sort_uniq_sorted..|]. intros K. rewrite HG', HG''. destruct Hsum as (_ & Hk & _). rewrite <- Eb in *. rewrite <- Hk. split; (intros [[H _]|[_ H]]; [congruence|]); right; (split; [exact Hb|]).
        - destruct H as (r & Hr & E). apply filter_In in Hr as [Hr _]. eauto.
        - destruct (HU K H) as [[H' _]|H']; [congruence|exact H']. }
      rewrite EK. apply map_ext_in. intros K HK. f_equal. apply HG in HK.
      assert (exists r, In r T /\ srow_key by_ r = List.map Some K) as HT.
      { destruct HK as [HK|[_ HK]]; [apply here; now left|]. destruct Hsum as (_ & Hk & _). now apply Hk. }
      destruct (columns K HT) as [_ Hc]. destruct (Hc l fs Hl) as (v & E1 & E2). rewrite !slice_pandas.
      assert (M_SqlLeaf.group by_ (List.map Some K) (filter (spass parse fs) T) = filter (spass parse fs) (M_SqlLeaf.group by_ (List.map Some K) T)) as -> by apply filter_comm.
      rewrite (leaf_pandas l fs _ v (Hkind l fs Hl) E1). symmetry.
      pose proof (leaf_pandas (Lf (LSum (Col (name l fs)))) [] (M_SqlLeaf.group by_ (List.map Some K) T') v) as HP. rewrite spass_nil in HP. apply HP; [|exact E2]. eexists. left. reflexivity.
    Qed.
    Theorem bottom_same : compute parse (push_metric name ab b) by_ (pandas_table T') = compute parse b by_ (filter (pfilters parse ab) (pandas_table T)).
    Proof. apply metric_push. intros l fs Hl. now apply leaf_same. Qed.

    Lemma push_leaves m : forall above l fs, In (l, fs) (leaves_with_filters [] (push_metric name above m)) ->
      fs = [] /\ exists l0 fs0, In (l0, fs0) (leaves_with_filters above m) /\ l = Lf (LSum (Col (name l0 fs0))).
    Proof.
      induction m as [l w|op a IHa c IHc w|op x a IHa w|op a IHa x w|a IHa w|a IHa w]; intros above l0 fs; cbn [push_metric leaves_with_filters app]; auto.
      - intros [E|[]]. injection E as <- <-. split; [reflexivity|]. exists l, (above ++ w). split; [now left|reflexivity].
      - intros H. apply in_app_or in H as [H|H]; [apply IHa in H as (H1 & l1 & f1 & H2 & H3)|apply IHc in H as (H1 & l1 & f1 & H2 & H3)]; (split; [exact H1|]); exists l1, f1; (split; [apply in_or_app; auto|exact H3]).
    Qed.
    Theorem bottom_fits : leaf_fits parse [] (push_metric name ab b) [] [] by_ T'.
    Proof.
      destruct Hsum as (S1 & S2 & S3). split; [|split].
      - intros l fs Hl. apply push_leaves in Hl as (-> & l0 & fs0 & _ & ->). split; [exact I|]. split; [intros []|]. intros f r [].
      - intros r c Hr _ Hc. now apply S1.
      - intros K HK. assert (exists r, In r T /\ srow_key by_ r = List.map Some K) as HT.
        { destruct HK as [HK|(r & Hr & _ & E)]; [apply here; now left|]. apply S2. eauto. }
        destruct (columns K HT) as [Hf _]. rewrite spass_nil. split; [|exact Hf]. intros l fs Hl. apply push_leaves in Hl as (-> & l0 & fs0 & Hl & ->). split; [|exact I]. right. apply used_nonempty. apply S2 in HT as (r & Hr & E). exists r. repeat split; auto.
    Qed.
  End Bottom.

  (** ** Trees *)
  Section Tree.
    Variables (df df' : table).
    Lemma tree_push m : forall by_ above loc,
      (forall b ab lc by', In (b, ab, lc, by') (bottoms [] m by_ above loc) -> compute parse (push_metric name ab b) by' df' = compute parse b by' (filter (pfilters parse ab) df)) ->
      op_compute parse psort (push_tree name above m) by_ df' = op_compute parse psort m by_ (filter (pfilters parse above) df) /\
      (tree_fits parse psort m by_ (filter (pfilters parse above) df) -> tree_fits parse psort (push_tree name above m) by_ df').
    Proof.
      induction m as [mm nm|over ch IH w|over how asc ch IH w|p cond base incl ch IH w|d over ch IH w|op x IHa y IHb nm w|op x ch IH nm w|op ch IH x nm w]; intros by_ above loc H; cbn [op_compute tree_fits push_tree bottoms] in *; cbn zeta; rewrite ?(no_filters parse df'), ?filter_pfilters_app, ?push_index.
      - split; [|auto]. f_equal. apply (H mm above loc by_). now left.
      - apply IH in H as [H1 H2]. rewrite H1. split; [reflexivity|]. intros [F1 F2]. split; auto.
      - apply IH in H as [H1 H2]. rewrite H1. split; [reflexivity|]. intros [F1 F2]. split; auto.
      - apply IH in H as [H1 H2]. rewrite H1. split; [reflexivity|]. intros [F1 F2]. split; auto.
      - apply IH in H as [H1 H2]. rewrite H1. split; [reflexivity|]. intros [F1 F2]. split; auto.
      - destruct (IHa by_ (above ++ w) (remove (add (add [] w) loc) [])) as [A1 A2]; [intros b ab lc by' Hb; apply (H b ab lc by'), in_or_app; auto|].
        destruct (IHb by_ (above ++ w) (remove (add (add [] w) loc) [])) as [B1 B2]; [intros b ab lc by' Hb; apply (H b ab lc by'), in_or_app; auto|].
        rewrite A1, B1. split; [reflexivity|]. intros (F1 & F2 & F3). auto.
      - apply IH in H as [H1 H2]. rewrite H1. split; [reflexivity|]. intros [F1 F2]. split; auto.
      - apply IH in H as [H1 H2]. rewrite H1. split; [reflexivity|]. intros [F1 F2]. split; auto.
    Qed.
  End Tree.

  (** ** The child on a table of sums *)
  Variable srt : list okey -> list env -> list env.
  Hypothesis Hdb : db_sorts srt.
  Hypothesis Hps : pandas_sorts psort.
  Theorem summary_query m s T T' P :
    supported_tree s m -> T <> [] ->
    (forall b ab lc by', In (b, ab, lc, by') (bottoms [] m s [] []) -> leaf_fits parse [] b ab lc by' T) ->
    tree_fits parse psort m s (pandas_table T) ->
    (forall l fs, In (l, fs) (tree_leaves [] m) -> sum_or_count_leaf l) ->
    (forall by', (forall c, In c by' -> In c (s ++ extra_split m)) -> summary by' (tree_leaves [] m) T T') ->
    op_compute parse psort m s (pandas_table T) = Some P ->
    inv parse srt T' (tree_sql [] [] (s ++ extra_idx m) s (push_tree name [] m)) (s ++ extra_idx m) (value_name m) P.
  Proof.
    intros Hsup Hne Hfit Htf Hkind Hsum EP.
    assert (forall b ab lc by', In (b, ab, lc, by') (bottoms [] m s [] []) ->
       (~ In "" lc /\ forall r, spass parse lc r = spass parse ab r) /\ leaf_fits parse [] b ab lc by' T /\
       (forall l fs, In (l, fs) (leaves_with_filters ab b) -> sum_or_count_leaf l) /\ summary by' (leaves_with_filters ab b) T T') as HB.
    { intros b ab lc by' Hb. pose proof (Hfit _ _ _ _ Hb) as Hf. split; [|split; [exact Hf|split]].
      - apply (bottoms_loc parse m s [] [] b ab lc by'); auto. intros Hi. destruct (some_leaf b ab) as (l & fs & Hl & Hi'). destruct Hf as [Hf _]. destruct (Hf l fs Hl) as (_ & Hn & _). apply Hn, Hi', Hi.
      - intros l fs Hl. apply (Hkind l fs). eapply bottom_leaves; eauto.
      - destruct (Hsum by') as (S1 & S2 & S3); [intros c Hc; apply in_or_app; eapply bottom_cols; eauto|]. split; [exact S1|]. split; [exact S2|]. intros l fs K v Hl. apply S3. eapply bottom_leaves; eauto. }
    destruct (tree_push (pandas_table T) (pandas_table T') m s [] []) as [E1 E2].
    { intros b ab lc by' Hb. destruct (HB _ _ _ _ Hb) as (B1 & B2 & B3 & B4). now apply (bottom_same b ab lc by' T T'). }
    rewrite no_filters in E1, E2.
    destruct (tree_step parse srt psort T' Hdb Hps [] (push_tree name [] m) s [] []) as (F & EF & HF & _).
    - intros b ab lc by' Hb. assert (exists ab0 b0, b = push_metric name ab0 b0 /\ ab = [] /\ lc = [] /\ exists lc0, In (b0, ab0, lc0, by') (bottoms [] m s [] [])) as (ab0 & b0 & -> & -> & -> & lc0 & H0).
      { pose proof (push_bottoms name [] m s [] b ab lc by' Hb) as (H1 & b0 & ab0 & H2 & H3). destruct (H3 []) as (lc0 & H4). exists ab0, b0. repeat split; eauto. subst ab.
        clear - Hb. assert (forall m above by_, In (b, [], lc, by') (bottoms [] (push_tree name above m) by_ [] []) -> lc = []) as HH; [|eauto].
        clear. induction m as [mm nm|over ch IH w|over how asc ch IH w|p cond base incl ch IH w|d over ch IH w|op x IHa y IHb nm w|op x ch IH nm w|op ch IH x nm w]; intros above by_; cbn [push_tree bottoms app]; change (remove (add (add [] []) []) []) with (@nil string); eauto.
        - intros [H|[]]. now injection H as _ <- _.
        - intros H. apply in_app_or in H as [H|H]; eauto. }
      destruct (HB _ _ _ _ H0) as (B1 & B2 & B3 & B4). now apply (bottom_fits b0 ab0 lc0 by' T T').
    - now apply push_supported.
    - apply placed_nil.
    - rewrite no_filters. auto.
    - rewrite no_filters, E1, EP in EF. injection EF as <-. now rewrite push_index, push_value in HF.
  Qed.
End Sum.
