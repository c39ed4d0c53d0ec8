From Coq Require Import Reals List Bool String ZArith Lia Lra.
From Verif Require Import M_Num M_Frame M_Leaf L_Frame M_SqlGlobal S_SqlGlobal L_SqlGlobal M_SqlLeaf S_SqlLeaf L_SqlLeaf.
Import ListNotations.
Open Scope string_scope.
Open Scope list_scope.

Lemma filter_filter {A} (p q : A -> bool) l : filter p (filter q l) = filter (fun x => q x && p x) l.
Proof. induction l as [|x l IH]; [reflexivity|]. cbn [filter]. destruct (q x); cbn [filter andb]; [destruct (p x); now rewrite IH|exact IH]. Qed.
Lemma filter_comm {A} (p q : A -> bool) l : filter p (filter q l) = filter q (filter p l).
Proof. rewrite !filter_filter. apply filter_ext. intros x. apply andb_comm. Qed.
Lemma filter_map_comm {A B} (f : A -> B) (p : B -> bool) l : filter p (List.map f l) = List.map f (filter (fun x => p (f x)) l).
Proof. induction l as [|x l IH]; [reflexivity|]. cbn [List.map filter]. rewrite IH. now destruct (p (f x)). Qed.

Lemma lookup_here k fr : In k (List.map fst fr) -> In (k, lookup k fr) fr.
Proof.
  induction fr as [|[k' v] fr IH]; [intros []|]. cbn [List.map fst In lookup]. destruct (key_eqb k' k) eqn:E.
  - apply key_eqb_eq in E as ->. auto.
  - intros [->|H]; [rewrite key_eqb_refl in E; discriminate|auto].
Qed.
Lemma lookup_map_snd (f : num -> num) k fr : In k (List.map fst fr) ->
  lookup k (List.map (fun kv => (fst kv, f (snd kv))) fr) = f (lookup k fr).
Proof.
  induction fr as [|[k' v] fr IH]; [intros []|]. cbn [List.map fst snd In lookup]. destruct (key_eqb k' k) eqn:E; [reflexivity|].
  intros [->|H]; [rewrite key_eqb_refl in E; discriminate|auto].
Qed.
Lemma map_fst_snd (f : num -> num) (fr : rframe) : List.map fst (List.map (fun kv => (fst kv, f (snd kv))) fr) = List.map fst fr.
Proof. now rewrite map_map. Qed.
Lemma map_fst_pair {A B} (f : A -> B) l : List.map fst (List.map (fun k => (k, f k)) l) = l.
Proof. rewrite map_map. apply map_id. Qed.
Lemma keys_of_In by_ df k : In k (keys_of by_ df) <-> exists r, In r df /\ row_key by_ r = Some k.
Proof.
  induction df as [|r df IH]; cbn [keys_of]; [split; [intros []|intros (r & [] & _)]|].
  destruct (row_key by_ r) as [k'|] eqn:E.
  - cbn [In]. rewrite IH. split.
    + intros [<-|(s & Hs & Ks)]; [exists r; cbn; auto|exists s; cbn; auto].
    + intros (s & [<-|Hs] & Ks); [left; congruence|right; eauto].
  - rewrite IH. split; [intros (s & Hs & Ks); exists s; cbn; auto|]. intros (s & [<-|Hs] & Ks); [congruence|eauto].
Qed.
Lemma group_keys_In by_ df k : In k (group_keys by_ df) <-> (by_ = [] /\ k = []) \/ (by_ <> [] /\ exists r, In r df /\ row_key by_ r = Some k).
Proof.
  unfold group_keys. destruct by_ as [|c by_].
  - cbn. split; [intros [<-|[]]; auto|intros [[_ ->]|[H _]]; [auto|congruence]].
  - rewrite sort_uniq_In, keys_of_In. split; [right; split; [discriminate|auto]|intros [[H _]|[_ H]]; [discriminate|auto]].
Qed.
Lemma row_key_pandas by_ r k : row_key by_ (pandas_row r) = Some k <-> srow_key by_ r = List.map Some k.
Proof.
  revert k. unfold srow_key. induction by_ as [|c by_ IH]; intros k; cbn [row_key List.map].
  - split; [intros E; injection E as <-; reflexivity|]. destruct k; [reflexivity|discriminate].
  - cbn [pandas_row lab]. destruct (slab r c) as [s|].
    + destruct (row_key by_ (pandas_row r)) as [k'|] eqn:E.
      * split; [intros H; injection H as <-; cbn; f_equal; now apply IH|]. destruct k as [|s' k]; [discriminate|]. cbn. intros H. injection H as -> H.
        apply IH in H. congruence.
      * split; [discriminate|]. destruct k as [|s' k]; [discriminate|]. cbn. intros H. injection H as -> H. apply IH in H. congruence.
    + split; [discriminate|]. destruct k; discriminate.
Qed.
Lemma has_key_pandas by_ k r : has_key by_ k (pandas_row r) = if skey_dec (srow_key by_ r) (List.map Some k) then true else false.
Proof.
  unfold has_key. destruct (skey_dec (srow_key by_ r) (List.map Some k)) as [E|N].
  - apply row_key_pandas in E as ->. apply key_eqb_refl.
  - destruct (row_key by_ (pandas_row r)) as [k'|] eqn:E; [|reflexivity]. apply key_eqb_neq. intros ->. apply N. now apply row_key_pandas.
Qed.

Section P.
  Variable parse : string -> cond.
  Notation spass := (spass parse). Notation pfilters := (pfilters parse). Notation compute := (compute parse).

  Lemma pfilters_app a b r : pfilters (a ++ b) r = pfilters a r && pfilters b r.
  Proof. apply forallb_app. Qed.
  Lemma filter_pfilters_app a b df : filter (pfilters b) (filter (pfilters a) df) = filter (pfilters (a ++ b)) df.
  Proof. rewrite filter_filter. apply filter_ext. intros r. now rewrite pfilters_app. Qed.
  Lemma verdict_filters fs r : (forall f, In f fs -> same_verdict (parse f) r) -> pfilters fs (pandas_row r) = spass fs r.
  Proof.
    intros H. rewrite spass_forallb. unfold M_SqlLeaf.pfilters. induction fs as [|f fs IH]; [reflexivity|]. cbn [forallb]. rewrite IH by (intros; apply H; cbn; auto).
    f_equal. apply H. cbn; auto.
  Qed.

  Lemma compute_NoDup m by_ df : NoDup (List.map fst (compute m by_ df)).
  Proof.
    revert df. induction m as [l w|op a IHa b IHb w|op x a IHa w|op a IHa x w|a IHa w|a IHa w]; intros df; cbn [M_SqlLeaf.compute].
    - unfold compute_leaf. rewrite map_fst_pair. unfold group_keys. destruct by_; [constructor; [intros []|constructor]|]. apply ksorted_NoDup, sort_uniq_sorted.
    - unfold align. rewrite map_fst_pair. apply ksorted_NoDup, sort_uniq_sorted.
    - rewrite (map_fst_snd (num_op op (Fin x))). apply IHa.
    - rewrite (map_fst_snd (fun v => num_op op v (Fin x))). apply IHa.
    - rewrite (map_fst_snd xsqrt). apply IHa.
    - rewrite (map_fst_snd xsq). apply IHa.
  Qed.
  Lemma run_NoDup q t : NoDup (List.map fst (run_query parse q t)).
  Proof.
    unfold run_query. rewrite map_fst_pair. destruct (q_by q); [constructor; [intros []|constructor]|]. apply NoDup_nodup.
  Qed.

  (** the value of a metric on one slice *)
  Fixpoint mval (m : metric) (rows : table) : num :=
    match m with
    | MLeaf l w => pandas_leaf l (filter (pfilters w) rows)
    | MOp op a b w => let rows := filter (pfilters w) rows in num_op op (mval a rows) (mval b rows)
    | MConstL op r a w => num_op op (Fin r) (mval a (filter (pfilters w) rows))
    | MConstR op a r w => num_op op (mval a (filter (pfilters w) rows)) (Fin r)
    | MSqrt a w => xsqrt (mval a (filter (pfilters w) rows))
    | MSq a w => xsq (mval a (filter (pfilters w) rows))
    end.

  Section Pandas.
    Variables (by_ : list string) (k : list string) (df0 : table).
    Lemma compute_value m : forall above,
      (forall l p, In (l, p) (leaves_with_filters above m) ->
         (by_ = [] /\ k = []) \/ exists r, In r df0 /\ row_key by_ r = Some k /\ pfilters p r = true) ->
      In k (List.map fst (compute m by_ (filter (pfilters above) df0))) /\
      lookup k (compute m by_ (filter (pfilters above) df0)) = mval m (slice by_ k (filter (pfilters above) df0)).
    Proof.
      assert (forall w df, slice by_ k (filter (pfilters w) df) = filter (pfilters w) (slice by_ k df)) as HS
        by (intros; apply filter_comm).
      induction m as [l w|op a IHa b IHb w|op x a IHa w|op a IHa x w|a IHa w|a IHa w]; intros above H;
      cbn [leaves_with_filters] in H; cbn [M_SqlLeaf.compute mval].
      - rewrite <- HS. rewrite !filter_pfilters_app. unfold compute_leaf. rewrite map_fst_pair.
        assert (In k (group_keys by_ (filter (pfilters (above ++ w)) df0))) as Hk.
        { apply group_keys_In. destruct (H l _ (or_introl eq_refl)) as [[E1 E2]|(r & Hr & Kr & Pr)]; [auto|].
          destruct by_ as [|c0 bs]; [left; split; [reflexivity|]; cbn in Kr; congruence|]. right. split; [discriminate|]. exists r. rewrite filter_In. auto. }
        split; [exact Hk|]. exact (lookup_map (fun k0 => pandas_leaf l (slice by_ k0 (filter (pfilters (above ++ w)) df0))) _ k Hk).
      - rewrite <- HS. rewrite !filter_pfilters_app. destruct (IHa (above ++ w)) as [A1 A2]; [intros l p Hp; apply (H l p), in_or_app; auto|].
        destruct (IHb (above ++ w)) as [B1 B2]; [intros l p Hp; apply (H l p), in_or_app; auto|].
        unfold align. rewrite map_fst_pair.
        assert (In k (sort_uniq (List.map fst (compute a by_ (filter (pfilters (above ++ w)) df0)) ++ List.map fst (compute b by_ (filter (pfilters (above ++ w)) df0))))) as Hk
          by (apply sort_uniq_In, in_or_app; auto).
        split; [exact Hk|]. etransitivity; [exact (lookup_map (fun k0 => num_op op (lookup k0 _) (lookup k0 _)) _ k Hk)|]. now rewrite A2, B2.
      - rewrite <- HS. rewrite !filter_pfilters_app. destruct (IHa (above ++ w)) as [A1 A2]; [exact H|].
        rewrite (map_fst_snd (num_op op (Fin x))), (lookup_map_snd (num_op op (Fin x))) by exact A1. now rewrite A2.
      - rewrite <- HS. rewrite !filter_pfilters_app. destruct (IHa (above ++ w)) as [A1 A2]; [exact H|].
        rewrite (map_fst_snd (fun v => num_op op v (Fin x))), (lookup_map_snd (fun v => num_op op v (Fin x))) by exact A1. now rewrite A2.
      - rewrite <- HS. rewrite !filter_pfilters_app. destruct (IHa (above ++ w)) as [A1 A2]; [exact H|].
        rewrite (map_fst_snd xsqrt), (lookup_map_snd xsqrt) by exact A1. now rewrite A2.
      - rewrite <- HS. rewrite !filter_pfilters_app. destruct (IHa (above ++ w)) as [A1 A2]; [exact H|].
        rewrite (map_fst_snd xsq), (lookup_map_snd xsq) by exact A1. now rewrite A2.
    Qed.
  End Pandas.

  Lemma some_leaf m : forall above, exists l p, In (l, p) (leaves_with_filters above m) /\ incl above p.
  Proof.
    assert (forall (above w p : list string), incl (above ++ w) p -> incl above p) as HI by (intros above w p H x Hx; apply H, in_or_app; auto).
    induction m as [l w|op a IHa b IHb w|op x a IHa w|op a IHa x w|a IHa w|a IHa w]; intros above; cbn [leaves_with_filters];
    [exists l, (above ++ w); split; [cbn; auto|apply (HI above w); intros x Hx; auto]|
     destruct (IHa (above ++ w)) as (l & p & Hp & Hi); exists l, p; split; [try (apply in_or_app; left); exact Hp|eapply HI, Hi]..].
  Qed.
  Lemma paths_leaves m : forall above, paths above (filter_tree m) = List.map snd (leaves_with_filters above m).
  Proof.
    induction m as [l w|op a IHa b IHb w|op x a IHa w|op a IHa x w|a IHa w|a IHa w]; intros above; cbn [filter_tree paths leaves_with_filters flat_map];
    [reflexivity|rewrite map_app, IHa, IHb, app_nil_r; reflexivity|rewrite IHa, app_nil_r; reflexivity..].
  Qed.

  Section Sql.
    Variables (t : stable) (by_ : list string) (k : list string) (glob : list string).
    Notation sgroup := (group by_ (List.map Some k) (filter (spass glob) t)).
    Lemma spass_step w loc r : ~ In "" w -> ~ In "" loc -> spass glob r = true -> spass (remove (add (add [] w) loc) glob) r = spass w r && spass loc r.
    Proof.
      intros Nw Nl Hg. apply eq_true_iff_eq. rewrite andb_true_iff, !spass_forallb in *. rewrite !forallb_forall in *. split.
      - intros H. split; intros f Hf.
        + destruct (in_dec string_dec f glob) as [Y|N]; [auto|]. apply H, remove_in. split; auto.
          assert (f <> "") by (intros ->; auto). rewrite !add_in by assumption. auto.
        + destruct (in_dec string_dec f glob) as [Y|N]; [auto|]. apply H, remove_in. split; auto.
          assert (f <> "") by (intros ->; auto). rewrite !add_in by assumption. auto.
      - intros [H1 H2] f Hf. apply remove_in in Hf as [Hf _]. destruct (string_dec f "") as [->|N].
        + exfalso. revert Hf. apply add_nonempty. apply add_nonempty. intros [].
        + rewrite !add_in in Hf by assumption. destruct Hf as [[[]|Hf]|Hf]; auto.
    Qed.
    Lemma sql_value m : forall loc above,
      ~ In "" loc ->
      (forall r, spass glob r = true -> spass loc r = spass above r) ->
      (forall l p, In (l, p) (leaves_with_filters above m) -> supported l /\ ~ In "" p /\ incl glob p /\
         (forall f r, In f p -> In r t -> same_verdict (parse f) r) /\ cov_same_nulls l (used_rows parse by_ k p t)) ->
      fits parse (sql_column glob loc m) sgroup ->
      fetch (sexpr_value parse (sql_column glob loc m) sgroup) = mval m (slice by_ k (filter (pfilters above) (pandas_table t))).
    Proof.
      assert (forall w df, slice by_ k (filter (pfilters w) df) = filter (pfilters w) (slice by_ k df)) as HS
        by (intros; apply filter_comm).
      assert (forall m0 w loc above, leaves_with_filters above m0 = leaves_with_filters above m0 ->
        (forall l p, In (l, p) (leaves_with_filters (above ++ w) m0) -> ~ In "" p) -> ~ In "" loc ->
        (forall r, spass glob r = true -> spass loc r = spass above r) ->
        ~ In "" (remove (add (add [] w) loc) glob) /\
        forall r, spass glob r = true -> spass (remove (add (add [] w) loc) glob) r = spass (above ++ w) r) as HN.
      { intros m0 w loc above _ Hp Hl He. destruct (some_leaf m0 (above ++ w)) as (l & p & H1 & H2).
        assert (~ In "" w) as Nw by (intros H; apply (Hp l p H1), H2, in_or_app; auto).
        split; [intros H; apply remove_in in H as [H _]; revert H; apply add_nonempty, add_nonempty; intros []|].
        intros r Hr. rewrite spass_step, spass_app, He by assumption. apply andb_comm. }
      induction m as [l w|op a IHa b IHb w|op x a IHa w|op a IHa x w|a IHa w|a IHa w]; intros loc above Hl He H;
      cbn [leaves_with_filters] in H; cbn [sql_column mval]; rewrite <- ?HS, ?filter_pfilters_app.
      - destruct (H l _ (or_introl eq_refl)) as (Hs & Hn & Hg & Hv & Hc). intros Hf.
        destruct (leaf_if parse l (remove (add (add [] w) loc) glob) sgroup Hs) as [E1 E2]. rewrite E1. apply E2 in Hf. clear E1 E2.
        destruct (HN (MLeaf l w) [] loc above eq_refl) as [_ _]; auto.
        { intros l0 p [E|[]]. injection E as <- <-. now rewrite app_nil_r. }
        assert (forall r, spass glob r = true -> spass (remove (add (add [] w) loc) glob) r = spass (above ++ w) r) as He'.
        { intros r Hr. rewrite spass_step, spass_app, He; auto; [apply andb_comm|]. intros Hw. apply Hn, in_or_app. auto. }
        assert (filter (spass (remove (add (add [] w) loc) glob)) sgroup = used_rows parse by_ k (above ++ w) t) as ER.
        { unfold group, used_rows. rewrite !filter_filter. apply filter_ext. intros r. destruct (spass glob r) eqn:G; cbn [andb].
          - rewrite (He' r G). apply andb_comm.
          - destruct (spass (above ++ w) r) eqn:E; [|reflexivity]. exfalso. rewrite spass_forallb in *. rewrite forallb_forall in E.
            assert (forallb (fun f => istrue (stest (parse f) r)) glob = true); [|congruence]. apply forallb_forall. intros f Hin. apply E, Hg, Hin. }
        rewrite ER in *. rewrite (leaf_fetch parse l _ Hs Hf Hc). f_equal.
        unfold slice, pandas_table, used_rows. rewrite filter_filter. rewrite filter_map_comm. f_equal. apply filter_ext_in. intros r Hr.
        rewrite has_key_pandas, verdict_filters; auto.
      - intros Hf. destruct (HN a w loc above eq_refl) as [N1 N2]; auto; [intros l p Hp; apply (H l p), in_or_app; auto|].
        assert (HA := IHa _ _ N1 N2 (fun l p Hp => H l p (in_or_app _ _ _ (or_introl Hp)))).
        assert (HB := IHb _ _ N1 N2 (fun l p Hp => H l p (in_or_app _ _ _ (or_intror Hp)))).
        destruct op; cbn [sql_op fits sexpr_value num_op] in *.
        + rewrite add_fetch, HA, HB by tauto. reflexivity.
        + rewrite sub_fetch, HA, HB by tauto. reflexivity.
        + rewrite mul_fetch, HA, HB by tauto. reflexivity.
        + destruct Hf as (F1 & F2 & F3). rewrite div_fetch, HA, HB by tauto. reflexivity.
      - intros Hf. destruct (HN a w loc above eq_refl) as [N1 N2]; auto; [intros l p Hp; apply (H l p); auto|].
        assert (HA := IHa _ _ N1 N2 H). destruct op; cbn [sql_op fits sexpr_value num_op] in *.
        + rewrite add_fetch, HA by tauto. reflexivity.
        + rewrite sub_fetch, HA by tauto. reflexivity.
        + rewrite mul_fetch, HA by tauto. reflexivity.
        + destruct Hf as (F1 & F2 & F3). rewrite div_fetch, HA by tauto. reflexivity.
      - intros Hf. destruct (HN a w loc above eq_refl) as [N1 N2]; auto; [intros l p Hp; apply (H l p); auto|].
        assert (HA := IHa _ _ N1 N2 H). destruct op; cbn [sql_op fits sexpr_value num_op] in *.
        + rewrite add_fetch, HA by tauto. reflexivity.
        + rewrite sub_fetch, HA by tauto. reflexivity.
        + rewrite mul_fetch, HA by tauto. reflexivity.
        + destruct Hf as (F1 & F2 & F3). pose proof (div_fetch _ _ F3) as E. cbn [fetch] in E. rewrite E, HA by tauto. reflexivity.
      - intros Hf. destruct (HN a w loc above eq_refl) as [N1 N2]; auto; [intros l p Hp; apply (H l p); auto|].
        cbn [sexpr_value fits] in *. rewrite xsqrt_fetch, (IHa _ _ N1 N2 H) by exact Hf. reflexivity.
      - intros Hf. destruct (HN a w loc above eq_refl) as [N1 N2]; auto; [intros l p Hp; apply (H l p); auto|].
        cbn [sexpr_value fits] in *. rewrite sq_fetch, (IHa _ _ N1 N2 H) by exact Hf. reflexivity.
    Qed.
  End Sql.

  Lemma glob_incl m l p : In (l, p) (leaves_with_filters [] m) -> ~ In "" p -> incl (get_global_filter (filter_tree m)) p.
  Proof.
    intros H Hn f Hf. destruct (string_dec f "") as [->|N].
    - exfalso. revert Hf. destruct m; cbn [filter_tree get_global_filter]; [apply add_nonempty; intros []|..]; cbn [mem existsb String.eqb];
      (apply add_nonempty, add_nonempty; intros []).
    - eapply (global_in_paths (filter_tree m) [] p f N); [|exact Hf]. rewrite paths_leaves. now apply (in_map snd) in H.
  Qed.

  Lemma values_agree t m by_ k :
    (forall l fs, In (l, fs) (leaves_with_filters [] m) -> supported l /\ ~ In "" fs /\
       (forall f r, In f fs -> In r t -> same_verdict (parse f) r) /\
       ((by_ = [] /\ k = []) \/ used_rows parse by_ k fs t <> []) /\
       cov_same_nulls l (used_rows parse by_ k fs t)) ->
    fits parse (q_col (to_sql m by_)) (group by_ (List.map Some k) (filter (spass (q_where (to_sql m by_))) t)) ->
    exists v, In (List.map Some k, v) (run_query parse (to_sql m by_) t) /\ In (k, fetch v) (compute m by_ (pandas_table t)).
  Proof.
    intros H Hf. cbn [to_sql q_col q_where q_by] in Hf. set (glob := get_global_filter (filter_tree m)) in *.
    assert (forall l p, In (l, p) (leaves_with_filters [] m) -> incl glob p) as HG by (intros l p Hp; apply (glob_incl m l p Hp), (H l p Hp)).
    exists (sexpr_value parse (sql_column glob [] m) (group by_ (List.map Some k) (filter (spass glob) t))). split.
    - unfold run_query. cbn [to_sql q_col q_where q_by]. fold glob. apply in_map_iff. exists (List.map Some k). split; [reflexivity|].
      destruct (some_leaf m []) as (l & p & Hp & _). destruct (H l p Hp) as (_ & _ & _ & HR & _).
      destruct HR as [[-> ->]|HR]; [cbn; auto|]. destruct (used_rows parse by_ k p t) as [|r rs] eqn:E; [congruence|].
      assert (In r (used_rows parse by_ k p t)) as Hr by (rewrite E; cbn; auto). unfold used_rows in Hr. apply filter_In in Hr as [Ht Hr].
      apply andb_true_iff in Hr as [Hp' Hk]. destruct (skey_dec (srow_key by_ r) (List.map Some k)) as [Ek|]; [|discriminate].
      destruct by_ as [|c by_]; [cbn in Ek |- *; rewrite <- Ek; auto|]. apply nodup_In. rewrite <- Ek. apply (in_map (srow_key (c :: by_))).
      apply filter_In. split; auto. rewrite spass_forallb in *. rewrite forallb_forall in *. intros f Hin. apply Hp'. eapply HG; eauto.
    - rewrite (sql_value t by_ k glob m [] []); auto.
      + destruct (compute_value by_ k (pandas_table t) m []) as [C1 C2].
        { intros l p Hp. destruct (H l p Hp) as (_ & _ & Hv & HR & _). destruct HR as [HR|HR]; [auto|]. right.
          destruct (used_rows parse by_ k p t) as [|r rs] eqn:E; [congruence|].
          assert (In r (used_rows parse by_ k p t)) as Hr by (rewrite E; cbn; auto). unfold used_rows in Hr. apply filter_In in Hr as [Ht Hr].
          apply andb_true_iff in Hr as [Hp' Hk]. destruct (skey_dec (srow_key by_ r) (List.map Some k)) as [Ek|]; [|discriminate].
          exists (pandas_row r). split; [now apply in_map|]. split; [now apply row_key_pandas|]. rewrite verdict_filters; auto. }
        assert (forall df, filter (pfilters []) df = df) as HI by (intros df; induction df as [|x df IH]; cbn [filter]; [reflexivity|]; cbn; now rewrite <- IH at 2).
        rewrite HI in *. rewrite <- C2. now apply lookup_here.
      + intros l p Hp. destruct (H l p Hp) as (H1 & H2 & H3 & _ & H5). repeat split; auto. eapply HG; eauto.
  Qed.

  (** the whole result of a leaf metric *)
  Lemma used_nonempty by_ k fs t : used_rows parse by_ k fs t <> [] <-> exists r, In r t /\ spass fs r = true /\ srow_key by_ r = List.map Some k.
  Proof.
    unfold used_rows. split.
    - intros H. destruct (filter _ t) as [|r rs] eqn:E; [congruence|]. exists r. assert (In r (r :: rs)) as Hr by (cbn; auto). rewrite <- E in Hr.
      apply filter_In in Hr as [Ht Hr]. apply andb_true_iff in Hr as [H1 H2]. destruct (skey_dec _ _); [auto|discriminate].
    - intros (r & Ht & Hp & Hk) E. assert (In r []) as []. rewrite <- E. apply filter_In. split; auto. rewrite Hp.
      destruct (skey_dec _ _); [reflexivity|congruence].
  Qed.
  Lemma leaf_glob l w f : ~ In "" w -> (In f (get_global_filter (filter_tree (MLeaf l w))) <-> In f w).
  Proof.
    intros Hn. cbn [filter_tree get_global_filter mem existsb String.eqb]. 
    change (In f (add [] w) <-> In f w). destruct (string_dec f "") as [->|N].
    - split; [intros H|tauto]. exfalso. revert H. apply add_nonempty. intros [].
    - rewrite add_in by exact N. cbn. tauto.
  Qed.
  Lemma spass_glob l w r : ~ In "" w -> spass (get_global_filter (filter_tree (MLeaf l w))) r = spass w r.
  Proof.
    intros Hn. rewrite !spass_forallb. apply eq_true_iff_eq. rewrite !forallb_forall. split; intros H f Hf; apply H; now apply (leaf_glob l w f Hn).
  Qed.
  Lemma leaf_whole t l w by_ : supported l -> ~ In "" w ->
    (forall f r, In f w -> In r t -> same_verdict (parse f) r) ->
    (forall r c, In r t -> spass w r = true -> In c by_ -> slab r c <> None) ->
    (forall k, (by_ = [] /\ k = []) \/ used_rows parse by_ k w t <> [] ->
       fits parse (q_col (to_sql (MLeaf l w) by_)) (used_rows parse by_ k w t) /\ cov_same_nulls l (used_rows parse by_ k w t)) ->
    (forall k v, In (k, v) (compute (MLeaf l w) by_ (pandas_table t)) <->
                 exists u, v = fetch u /\ In (List.map Some k, u) (run_query parse (to_sql (MLeaf l w) by_) t)) /\
    (forall sk u, In (sk, u) (run_query parse (to_sql (MLeaf l w) by_) t) -> exists k, sk = List.map Some k).
  Proof.
    intros Hs Hn Hv Hk Hf.
    assert (forall k, (by_ = [] /\ k = []) \/ used_rows parse by_ k w t <> [] ->
      exists u, In (List.map Some k, u) (run_query parse (to_sql (MLeaf l w) by_) t) /\ In (k, fetch u) (compute (MLeaf l w) by_ (pandas_table t))) as HA.
    { intros k HR. destruct (Hf k HR) as [F C]. apply values_agree.
      - intros l0 fs [E|[]]. injection E as <- <-. cbn [app]. auto.
      - replace (group by_ (List.map Some k) (filter (spass (q_where (to_sql (MLeaf l w) by_))) t)) with (used_rows parse by_ k w t); [exact F|].
        unfold group, used_rows. rewrite filter_filter. apply filter_ext. intros r. f_equal. symmetry. apply (spass_glob l w r Hn). }
    assert (forall sk u, In (sk, u) (run_query parse (to_sql (MLeaf l w) by_) t) -> exists k, sk = List.map Some k /\ ((by_ = [] /\ k = []) \/ used_rows parse by_ k w t <> [])) as HB.
    { intros sk u. unfold run_query. intros H. apply in_map_iff in H as (sk' & E & H). injection E as -> _. cbn [to_sql q_by q_where] in H.
      destruct by_ as [|c by_]; [destruct H as [<-|[]]; exists []; auto|]. apply nodup_In in H. apply in_map_iff in H as (r & Er & Hr).
      apply filter_In in Hr as [Ht Hr]. rewrite (spass_glob l w r Hn) in Hr.
      assert (exists k, sk = List.map Some k) as [k Ek].
      { rewrite <- Er. unfold srow_key. pose proof (fun c0 => Hk r c0 Ht Hr) as Hc. revert Hc. generalize (c :: by_) as cs. intros cs Hc.
        induction cs as [|c0 cs IH]; [now exists []|]. destruct IH as [k Ek]; [intros c1 H1; apply Hc; cbn; auto|].
        specialize (Hc c0 (or_introl eq_refl)). destruct (slab r c0) as [s|] eqn:Es; [|congruence]. exists (s :: k). cbn. rewrite Es. now f_equal. }
      exists k. split; auto. right. apply used_nonempty. exists r. repeat split; auto. congruence. }
    split.
    - intros k v. split.
      + intros H. assert ((by_ = [] /\ k = []) \/ used_rows parse by_ k w t <> []) as HR.
        { assert (In k (List.map fst (compute (MLeaf l w) by_ (pandas_table t)))) as Hin by (now apply (in_map fst) in H).
          cbn [M_SqlLeaf.compute] in Hin. unfold compute_leaf in Hin. rewrite map_fst_pair in Hin. apply group_keys_In in Hin as [Hin|[_ (r & Hr & Kr)]]; [auto|].
          right. apply filter_In in Hr as [Hr Pr]. unfold pandas_table in Hr. apply in_map_iff in Hr as (s & <- & Hs').
          apply used_nonempty. exists s. repeat split; auto; [rewrite <- verdict_filters; auto|now apply row_key_pandas]. }
        destruct (HA k HR) as (u & H1 & H2). exists u. split; [|exact H1].
        rewrite <- (lookup_In k v _ (compute_NoDup _ _ _) H). exact (lookup_In k (fetch u) _ (compute_NoDup _ _ _) H2).
      + intros (u & -> & H). destruct (HB _ _ H) as (k' & E & HR). assert (k' = k) as ->.
        { clear -E. revert k' E. induction k as [|x k IH]; intros [|y k'] E; try discriminate; [reflexivity|]. cbn in E. injection E as -> E. f_equal. now apply IH. }
        destruct (HA k HR) as (u' & H1 & H2). assert (u' = u) as ->; [|exact H2].
        pose proof (run_NoDup (to_sql (MLeaf l w) by_) t) as ND. revert ND H H1. generalize (run_query parse (to_sql (MLeaf l w) by_) t) as q.
        intros q ND H H1. induction q as [|[a b] q IH]; [destruct H|]. cbn in ND. inversion ND as [|? ? N1 N2]; subst.
        destruct H as [H|H], H1 as [H1|H1]; try congruence.
        * exfalso. apply N1. injection H as -> _. exact (in_map fst _ _ H1).
        * exfalso. apply N1. injection H1 as -> _. exact (in_map fst _ _ H).
        * auto.
    - intros sk u H. destruct (HB _ _ H) as (k & E & _). eauto.
  Qed.
End P.
