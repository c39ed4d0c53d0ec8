(** An operation over several columns (C74): custom order, comparisons, diversity. *)
From Coq Require Import Reals List Bool String Arith Permutation Sorted Lia Lra.
From Verif Require Import M_Num M_Frame S_Ops M_Ops L_Frame L_OpsA L_OpsB L_OpsC L_Jackknife3 L_Slices L_SqlOps3 L_SqlOps4 L_SqlLeaf2 M_SqlOps M_SqlList M_OpList S_OpList L_OpList1 L_OpList2 L_OpList3.
Import ListNotations.
Open Scope list_scope.

Definition reindexed (n : nat) (o : list string) (l : rframe) : rframe := flat_map (fun x => filter (fun r => key_eqb (firstn 1 (skipn n (fst r))) [x]) l) o.
Lemma solid_filter n g p (l : rframe) : solid n g (filter p l) = filter p (solid n g l).
Proof. unfold solid. rewrite !group_def. induction l as [|r l IH]; cbn; auto. destruct (p r) eqn:E1, (key_eqb (firstn n (fst r)) g) eqn:E2; cbn [filter]; rewrite ?E2; cbn [filter]; try (destruct (negb (is_nan (snd r))) eqn:E3); cbn [filter]; rewrite ?E1, ?IH; auto. Qed.
Lemma solid_app n g (a b : rframe) : solid n g (a ++ b) = solid n g a ++ solid n g b.
Proof. unfold solid. rewrite !group_def. now rewrite !filter_app. Qed.
Lemma one_row {A} (l l' : list A) : Permutation l l' -> (forall a b, In a l -> In b l -> a = b) -> l = l'.
Proof.
  intros Hp Ha. apply (ssorted_unique (fun _ _ => True)); auto; apply ssorted_all; auto.
Qed.
Lemma reindexed_nodup n (l : rframe) : NoDup (List.map fst l) -> forall o, NoDup o -> NoDup (List.map fst (reindexed n o l)).
Proof.
  intros Hd. induction o as [|x o IH]; intros Ho; [constructor|]. inversion Ho as [|? ? Hx Ho']; subst. unfold reindexed. cbn [flat_map]. rewrite map_app. apply NoDup_app_disjoint.
  - now apply NoDup_map_filter'.
  - now apply IH.
  - intros k Hk Hk'. apply in_map_iff in Hk as (r & <- & Hr). apply filter_In in Hr as [_ Er]. apply key_eqb_eq in Er.
    apply in_map_iff in Hk' as (r' & E' & Hr'). apply in_flat_map in Hr' as (y & Hy & Hr'). apply filter_In in Hr' as [_ Er']. apply key_eqb_eq in Er'. rewrite E', Er in Er'. injection Er' as ->. contradiction.
Qed.

Section Op.
  Variables (c j n : nat) (w : wframe) (fr : rframe).
  Hypothesis Hj : (j < c)%nat.
  Hypothesis Hp : pads (wcol j w) fr.
  Hypothesis Hd : NoDup (List.map fst fr).

  (** ** CumulativeDistribution with an order *)
  Section Order.
    Variable o : list string.
    Hypothesis Ho : NoDup o.
    Hypothesis Hlen : forall k, In k (List.map fst w) -> List.length k = S n.
    Let D := wdistribution c n w.
    Lemma D_keys : List.map fst D = List.map fst w.
    Proof. unfold D. rewrite <- (wcol_keys j (wdistribution c n w)), wcol_distribution by exact Hj. unfold distribution. rewrite map_map. cbn. apply wcol_keys. Qed.
    Lemma D_nodup : NoDup (List.map fst D). Proof. rewrite D_keys, <- (wcol_keys j). apply Hp. Qed.
    Lemma reindex_rows r : In r (wreindex n o D) <-> In r D /\ exists x, In x o /\ skipn n (fst r) = [x].
    Proof.
      unfold wreindex. rewrite in_flat_map. split.
      - intros (x & Hx & Hr). apply filter_In in Hr as [Hr E]. apply key_eqb_eq in E. split; auto. exists x. split; auto.
        assert (List.length (fst r) = S n) as Hl by (apply Hlen; rewrite <- D_keys; now apply in_map). assert (List.length (skipn n (fst r)) = 1%nat) as Hs by (rewrite skipn_length; lia).
        destruct (skipn n (fst r)) as [|y [|]]; try discriminate. exact E.
      - intros [Hr (x & Hx & E)]. exists x. split; auto. apply filter_In. split; auto. rewrite E. now apply key_eqb_eq.
    Qed.
    (** Every row of the order with a value of this column has values in all columns. *)
    Definition complete_rows : Prop := forall r, In r (wreindex n o D) -> is_nan (cell_at j r) = false -> forall i, (i < c)%nat -> is_nan (cell_at i r) = false.
    Lemma res_keys k : In k (List.map fst (sort_by_level n (group_cumsum n (reindex_order n o (distribution n fr))))) <->
      exists r, In r (wreindex n o D) /\ fst r = k /\ is_nan (cell_at j r) = false.
    Proof.
      rewrite level_keys_keep. unfold group_cumsum. rewrite L_OpsA.cumsum_from_keys. unfold reindex_order. fold (reindexed n o (distribution n fr)).
      pose proof (pads_distribution _ _ n Hp) as Hpd. rewrite <- (wcol_distribution c j n w Hj) in Hpd. fold D in Hpd. destruct Hpd as (HD & E & HE & Hn).
      rewrite in_map_iff. split.
      - intros ([k' v] & <- & Hr). cbn. apply filter_In in Hr as [Hr Hv]. cbn in Hv. apply negb_true_iff in Hv. unfold reindexed in Hr. apply in_flat_map in Hr as (x & Hx & Hr). apply filter_In in Hr as [Hr Er].
        assert (In (k', v) (wcol j D)) as Hin by (apply (Permutation_in _ (Permutation_sym HE)), in_or_app; auto).
        unfold wcol in Hin. apply in_map_iff in Hin as (r & Er' & Hin). injection Er' as Ek Ev. exists r. split; [|split; [exact Ek|now rewrite Ev]].
        unfold wreindex. apply in_flat_map. exists x. split; auto. apply filter_In. split; auto. rewrite Ek. exact Er.
      - intros (r & Hr & <- & Hv). unfold wreindex in Hr. apply in_flat_map in Hr as (x & Hx & Hr). apply filter_In in Hr as [Hr Er].
        exists (fst r, cell_at j r). split; auto. apply filter_In. split; [|cbn; now rewrite Hv]. unfold reindexed. apply in_flat_map. exists x. split; auto. apply filter_In. split; auto.
        assert (In (fst r, cell_at j r) (wcol j D)) as Hin by (unfold wcol; apply in_map_iff; eauto). apply (Permutation_in _ HE) in Hin. apply in_app_iff in Hin as [Hin|Hin]; auto.
        rewrite Forall_forall in Hn. specialize (Hn _ Hin). cbn in Hn. rewrite Hn in Hv. discriminate.
    Qed.
    Lemma rows_keys lsort vsort (asc : bool) (o' : list string) : (if asc then o' else rev o') = o -> forall k, In k (List.map fst (wcumulative lsort vsort c n (CumOrder o') asc w)) <->
      exists r, In r (wreindex n o D) /\ fst r = k /\ forall i, (i < c)%nat -> is_nan (cell_at i r) = false.
    Proof.
      intros Eo k. unfold wcumulative. rewrite Eo. fold D. rewrite (wlevel_keep j), <- (wcol_keys j), wcol_cumsum by exact Hj. rewrite L_OpsA.cumsum_from_keys, wcol_keys. unfold wdropna. rewrite in_map_iff. split.
      - intros (r & <- & Hr). apply filter_In in Hr as [Hr Ha]. exists r. split; auto. split; auto. intros i Hi. rewrite forallb_forall in Ha. apply negb_true_iff, Ha, in_seq. lia.
      - intros (r & Hr & <- & Ha). exists r. split; auto. apply filter_In. split; auto. apply forallb_forall. intros i Hi. apply in_seq in Hi. now rewrite Ha by lia.
    Qed.
    Lemma order_rows_iff lsort vsort (asc : bool) (o' : list string) : (if asc then o' else rev o') = o ->
      ((forall k, In k (List.map fst (sort_by_level n (group_cumsum n (reindex_order n o (distribution n fr))))) -> In k (List.map fst (wcumulative lsort vsort c n (CumOrder o') asc w))) <-> complete_rows).
    Proof.
      intros Eo. split.
      - intros H r Hr Hv i Hi. assert (In (fst r) (List.map fst (wcumulative lsort vsort c n (CumOrder o') asc w))) as Hk by (apply H, res_keys; eauto).
        apply (rows_keys lsort vsort asc o' Eo) in Hk as (r' & Hr' & E & Ha). assert (r' = r) as ->; [|auto].
        apply reindex_rows in Hr as [Hr _]. apply reindex_rows in Hr' as [Hr' _]. apply (NoDup_fst_eq D); auto using D_nodup.
      - intros H k Hk. apply res_keys in Hk as (r & Hr & <- & Hv). apply (rows_keys lsort vsort asc o' Eo). exists r. split; [exact Hr|split; [reflexivity|apply H; auto]].
    Qed.
    Lemma solid_order g : complete_rows -> solid n g (wcol j (wdropna c (wreindex n o D))) = solid n g (reindexed n o (wcol j D)).
    Proof.
      intros H. unfold complete_rows in H. assert (reindexed n o (wcol j D) = wcol j (wreindex n o D)) as ->.
      { unfold reindexed, wreindex. rewrite wcol_flat. apply flat_map_ext. intros x. symmetry. exact (wcol_filter j D (fun k => key_eqb (firstn 1 (skipn n k)) [x])). }
      revert H. generalize (wreindex n o D). intros l H. unfold wdropna. induction l as [|r l IH]; auto. cbn [filter].
      assert (forall r', In r' l -> is_nan (cell_at j r') = false -> forall i, (i < c)%nat -> is_nan (cell_at i r') = false) as H' by (intros r' Hr'; apply H; now right). specialize (IH H').
      destruct (forallb (fun i => negb (is_nan (cell_at i r))) (seq 0 c)) eqn:Ef.
      - rewrite !wcol_cons. change (solid n g ((fst r, cell_at j r) :: ?x)) with (solid n g ([(fst r, cell_at j r)] ++ x)). rewrite !(solid_app n g [_]). now rewrite IH.
      - rewrite wcol_cons. change (solid n g ((fst r, cell_at j r) :: ?x)) with (solid n g ([(fst r, cell_at j r)] ++ x)). rewrite (solid_app n g [_]), IH.
        assert (is_nan (cell_at j r) = true) as Hnan.
        { destruct (is_nan (cell_at j r)) eqn:Ec; auto. assert (forallb (fun i => negb (is_nan (cell_at i r))) (seq 0 c) = true) as Ht; [|congruence].
          apply forallb_forall. intros i Hi. apply in_seq in Hi. rewrite (H r); auto; [now left|lia]. }
        unfold solid at 2. rewrite group_def. cbn [filter fst]. destruct (key_eqb (firstn n (fst r)) g); cbn [filter snd]; rewrite ?Hnan; reflexivity.
    Qed.
    Lemma op_cum_order lsort vsort (asc : bool) (o' : list string) : (if asc then o' else rev o') = o -> complete_rows ->
      column_is j (wcumulative lsort vsort c n (CumOrder o') asc w) (cumulative_distribution n (ByOrder o) fr) NaN.
    Proof.
      intros Eo Hc. pose proof (proj2 (order_rows_iff lsort vsort asc o' Eo) Hc) as Hk. pose proof (pads_distribution _ _ n Hp) as Hpd. rewrite <- (wcol_distribution c j n w Hj) in Hpd. fold D in Hpd.
      destruct (pads_nodup _ _ Hpd) as [HD1 HD2].
      assert (NoDup (List.map fst (reindex_order n o (distribution n fr)))) as N1 by (unfold reindex_order; apply NoDup_map_filter'; now apply (reindexed_nodup n)).
      assert (NoDup (List.map fst (wcol j (wdropna c (wreindex n o D))))) as N2.
      { rewrite wcol_keys. unfold wdropna. apply NoDup_map_filter. rewrite <- (wcol_keys j). replace (wcol j (wreindex n o D)) with (reindexed n o (wcol j D)); [now apply reindexed_nodup|].
        unfold reindexed, wreindex. rewrite wcol_flat. apply flat_map_ext. intros x. symmetry. exact (wcol_filter j D (fun k => key_eqb (firstn 1 (skipn n k)) [x])). }
      apply column_all; [exact Hk|]. intros k. unfold wcumulative, cumulative_distribution. rewrite Eo. fold D. rewrite wcol_level, wcol_cumsum by exact Hj. change (cumsum_from n (wcol j [])) with (group_cumsum n).
      rewrite !level_lookup by now apply cumsum_nodup. apply cum_same; auto. rewrite solid_order by exact Hc.
      assert (solid n (firstn n k) (reindex_order n o (distribution n fr)) = solid n (firstn n k) (reindexed n o (distribution n fr))) as ->.
      { unfold reindex_order. fold (reindexed n o (distribution n fr)). rewrite solid_filter. unfold solid. apply filter_all. intros r Hr. now apply filter_In in Hr as [_ ?]. }
      unfold reindexed. generalize o at 1 2. intros o2. induction o2 as [|x l IH]; auto. cbn [flat_map]. rewrite !solid_app. f_equal; [|exact IH].
      - rewrite !solid_filter. apply one_row; [now apply filter_perm', solid_pads|].
        intros a b Ha Hb. apply filter_In in Ha as [Ha Ea]. apply filter_In in Hb as [Hb Eb]. apply solid_in in Ha as (Ha & Ga & _). apply solid_in in Hb as (Hb & Gb & _). apply key_eqb_eq in Ea, Eb.
        apply (row_unique (wcol j D)); auto. rewrite <- (firstn_skipn n (fst a)), <- (firstn_skipn n (fst b)). f_equal; [congruence|].
        assert (forall z, In z (wcol j D) -> List.length (skipn n (fst z)) = 1%nat) as Hz.
        { intros z Hz. rewrite skipn_length, Hlen; [lia|]. rewrite <- D_keys, <- (wcol_keys j D). now apply in_map. }
        rewrite <- (firstn_all2 (n := 1) (skipn n (fst a))) by (rewrite Hz; auto). rewrite <- (firstn_all2 (n := 1) (skipn n (fst b))) by (rewrite Hz; auto). congruence.
    Qed.
  End Order.

  (** ** Comparisons *)
  Section Change.
    Variables (f : num -> num -> num) (nc : nat) (base : list string) (include_base : bool).
    Hypothesis Hf : forall b, f NaN b = NaN.
    Hypothesis Hf' : forall v, f v NaN = NaN.
    Hypothesis Hlen : forall k, In k (List.map fst w) -> (n + nc <= List.length k)%nat.
    Lemma Hgood : good_index (n + nc) w.
    Proof. split; [rewrite <- (wcol_keys j); apply Hp|]. intros k v Hk. apply Hlen. apply in_map_iff. now exists (k, v). Qed.
    Lemma base_pads b : xs n nc base w = Some b -> pads (wcol j b) (List.map (fun r => (drop_cond n nc (fst r), snd r)) (filter (fun r => key_eqb (cond_of n nc (fst r)) base) fr)).
    Proof.
      intros H. pose proof (xs_unique n nc base w b Hgood H) as Hu. apply xs_Some in H. subst b.
      split; [now rewrite wcol_keys|]. pose proof (pads_filter _ _ (fun r => key_eqb (cond_of n nc (fst r)) base) Hp) as (_ & E & HE & Hn).
      exists (List.map (fun r => (drop_cond n nc (fst r), snd r)) E). split.
      - rewrite <- map_app. rewrite <- (Permutation_map (fun r => (drop_cond n nc (fst r), snd r)) HE).
        rewrite <- (wcol_filter j w (fun k => key_eqb (cond_of n nc k) base)). unfold wcol. rewrite !map_map. reflexivity.
      - rewrite Forall_forall in *. intros r Hr. apply in_map_iff in Hr as (x & <- & Hx). cbn. now apply Hn.
    Qed.
    Lemma wchange_col b : xs n nc base w = Some b ->
      wcol j (if include_base then per_cell c (fun i k v => f v (wlookup i (drop_cond n nc k) b)) w else filter (fun r => negb (key_eqb (cond_of n nc (fst r)) base)) (per_cell c (fun i k v => f v (wlookup i (drop_cond n nc k) b)) w)) =
      (if include_base then List.map (fun r => (fst r, f (snd r) (wlookup j (drop_cond n nc (fst r)) b))) (wcol j w) else filter (fun r => negb (key_eqb (cond_of n nc (fst r)) base)) (List.map (fun r => (fst r, f (snd r) (wlookup j (drop_cond n nc (fst r)) b))) (wcol j w))).
    Proof.
      intros _. destruct include_base; [now rewrite wcol_per_cell|]. rewrite (wcol_filter j _ (fun k => negb (key_eqb (cond_of n nc k) base))). now rewrite wcol_per_cell.
    Qed.
    Lemma op_change res : compare_with_base f n nc base include_base fr = Some res ->
      exists rows, wchange f c n nc base include_base w = Some rows /\ column_is j rows res NaN.
    Proof.
      unfold compare_with_base, wchange. destruct (xs n nc base fr) as [bq|] eqn:Eq; [|discriminate]. intros H. injection H as <-.
      destruct (xs n nc base w) as [b|] eqn:Ew.
      - eexists. split; [reflexivity|]. apply pads_is. cbv zeta. rewrite wchange_col by exact Ew. pose proof (base_pads b Ew) as Hb. apply xs_Some in Eq. rewrite <- Eq in Hb.
        assert (pads (List.map (fun r => (fst r, f (snd r) (wlookup j (drop_cond n nc (fst r)) b))) (wcol j w)) (List.map (fun r => (fst r, f (snd r) (lookup (drop_cond n nc (fst r)) bq))) fr)) as Hm.
        { rewrite (map_ext (fun r => (fst r, f (snd r) (wlookup j (drop_cond n nc (fst r)) b))) (fun r => (fst r, f (snd r) (lookup (drop_cond n nc (fst r)) bq)))).
          - apply (pads_values _ _ (fun k v => f v (lookup (drop_cond n nc k) bq))); auto.
          - intros r. unfold wlookup. now rewrite (pads_lookup _ _ _ Hb). }
        destruct include_base; auto. now apply pads_filter.
      - exfalso. assert (xs n nc base fr = None) as H0; [|congruence]. apply xs_None. intros k v Hk Hc. rewrite xs_None in Ew.
        assert (In k (List.map fst w)) as Hw by (rewrite <- (wcol_keys j); apply (pads_keys _ _ _ Hp); apply in_map_iff; now exists (k, v)).
        apply in_map_iff in Hw as ([k' v'] & E & Hw). cbn in E. subst k'. now apply (Ew k v').
    Qed.
    Lemma op_change_none rows : compare_with_base f n nc base include_base fr = None -> wchange f c n nc base include_base w = Some rows -> forall k, lookup k (wcol j rows) = NaN.
    Proof.
      unfold compare_with_base, wchange. destruct (xs n nc base fr) as [bq|] eqn:Eq; [discriminate|]. intros _. destruct (xs n nc base w) as [b|] eqn:Ew; [|discriminate]. intros H. injection H as <-. intros k.
      rewrite wchange_col by exact Ew. pose proof (base_pads b Ew) as Hb. assert (filter (fun r => key_eqb (cond_of n nc (fst r)) base) fr = []) as E0.
      { apply filter_none. intros [k' v'] Hr. cbn. rewrite xs_None in Eq. specialize (Eq k' v' Hr). unfold key_eqb. now destruct list_eq_dec. }
      rewrite E0 in Hb. cbn in Hb. assert (forall l : rframe, lookup k (List.map (fun r => (fst r, f (snd r) (wlookup j (drop_cond n nc (fst r)) b))) l) = NaN) as Hl.
      { induction l as [|r l IH]; cbn; auto. destruct (key_eqb (fst r) k); auto. unfold wlookup. now rewrite (pads_lookup _ _ _ Hb). }
      destruct include_base; [apply Hl|]. apply lookup_nans. apply Forall_forall. intros r Hr. apply filter_In in Hr as [Hr _]. apply in_map_iff in Hr as (x & <- & _). cbn. unfold wlookup. now rewrite (pads_lookup _ _ _ Hb).
    Qed.
  End Change.

  (** ** Diversity *)
  Lemma level_more k : In k (level_keys n (distribution n fr)) -> In k (level_keys n (distribution n (wcol j w))).
  Proof.
    rewrite !level_keys_In. intros [H|[H0 (r & Hr & <-)]]; [now left|]. right. split; auto. pose proof (pads_distribution _ _ n Hp) as (_ & E & HE & _). exists r. split; auto.
    apply (Permutation_in _ (Permutation_sym HE)), in_or_app. auto.
  Qed.
  Lemma group_keys_level (agg : list num -> num) l : List.map fst (groupby_level n agg l) = level_keys n l.
  Proof. unfold groupby_level. rewrite map_map. cbn. apply map_id. Qed.
  Lemma dist_vals g : exists m, Permutation (List.map snd (filter (fun r => key_eqb (firstn n (fst r)) g) (distribution n (wcol j w)))) (List.map snd (filter (fun r => key_eqb (firstn n (fst r)) g) (distribution n fr)) ++ nans m).
  Proof. exact (pads_vals _ _ n g (pads_distribution _ _ n Hp)). Qed.
  (** An aggregation that does not see missing values. *)
  Lemma op_agg (agg : list num -> num) d rows : (forall l l' m, Permutation l (l' ++ nans m) -> agg l = agg l') -> agg [] = d ->
    (forall k, In k (List.map fst rows) <-> In k (level_keys n (distribution n (wcol j w)))) -> (forall k, lookup k (wcol j rows) = lookup k (groupby_level n agg (distribution n (wcol j w)))) ->
    column_is j rows (groupby_level n agg (distribution n fr)) d.
  Proof.
    intros Ha Hd0 Hk Hl. split.
    - intros k H. rewrite group_keys_level in H. split; [apply Hk; now apply level_more|]. rewrite Hl, !groupby_lookup by auto using level_more. destruct (dist_vals k) as [m Hm]. now apply (Ha _ _ m).
    - intros k H Hn. rewrite Hl, groupby_lookup by now apply Hk. destruct (dist_vals k) as [m Hm]. rewrite (Ha _ _ m Hm). rewrite group_keys_level in Hn.
      assert (filter (fun r => key_eqb (firstn n (fst r)) k) (distribution n fr) = []) as ->; [|exact Hd0]. apply filter_none. intros r Hr. unfold key_eqb. destruct list_eq_dec as [E|]; auto. destruct Hn. apply level_keys_In.
      destruct n; [left; split; auto; now rewrite <- E|]. right. split; [discriminate|]. eauto.
  Qed.
  Lemma level_nodup l : NoDup (level_keys n l). Proof. apply ksorted_NoDup, level_keys_sorted. Qed.
  Lemma wgroupby_keys agg l : List.map fst (wgroupby c n agg l) = level_keys n (wcol j l).
  Proof. unfold wgroupby. rewrite map_map. cbn. rewrite map_id. apply wgroups_col. Qed.
  Lemma op_hhi : column_is j (wdiversity c n HHI w) (hhi n fr) (Fin 0).
  Proof.
    apply op_agg; auto.
    - intros l l' m H. apply (xsum_padded _ _ m). now apply map_padded.
    - intros k. cbn [wdiversity]. now rewrite wgroupby_keys, wcol_distribution.
    - intros k. cbn [wdiversity]. now rewrite wcol_groupby, wcol_distribution.
  Qed.
  Lemma op_entropy : column_is j (wdiversity c n Entropy w) (entropy n fr) (Fin 0).
  Proof.
    apply op_agg; auto.
    - intros l l' m H. apply (xsum_padded _ _ m). now apply (map_padded (fun x => xmul (xopp x) (xlog x))).
    - intros k. cbn [wdiversity]. now rewrite wgroupby_keys, wcol_distribution.
    - intros k. cbn [wdiversity]. now rewrite wcol_groupby, wcol_distribution.
  Qed.
  Lemma nth_seq (F : nat -> rframe) : nth_error (List.map F (seq 0 c)) j = Some (F j).
  Proof. apply map_nth_error. rewrite (nth_error_nth' _ 0%nat) by (rewrite seq_length; exact Hj). now rewrite seq_nth. Qed.
  Lemma op_nxx x : column_is j (wdiversity c n (Nxx x) w) (nxx x n fr) (Fin 1).
  Proof.
    assert (nth_error (List.map (fun i => groupby_level n (nxx_col x) (wcol i (wdistribution c n w))) (seq 0 c)) j = Some (groupby_level n (nxx_col x) (distribution n (wcol j w)))) as Hn
      by (rewrite <- (wcol_distribution c j n w Hj); apply (nth_seq (fun i => groupby_level n (nxx_col x) (wcol i (wdistribution c n w))))).
    assert (pads (wcol j (wdiversity c n (Nxx x) w)) (groupby_level n (nxx_col x) (distribution n (wcol j w)))) as Hc.
    { apply concat_pads; auto. rewrite group_keys_level. apply level_nodup. }
    apply op_agg.
    - apply nxx_padded.
    - reflexivity.
    - intros k. cbn [wdiversity]. rewrite concat_keys. split.
      + intros (g & Hg & Hk). apply in_map_iff in Hg as (i & <- & Hi). rewrite group_keys_level, <- (wgroups_col n i), (wgroups_col n j), wcol_distribution in Hk by exact Hj. exact Hk.
      + intros Hk. exists (groupby_level n (nxx_col x) (distribution n (wcol j w))). split; [now apply (nth_error_In _ j)|now rewrite group_keys_level].
    - intros k. now apply pads_lookup.
  Qed.
  Notation tops K l := (List.map (fun g : list string * list num => (fst g, xsum (snd g))) (filter (fun g => match snd g with [] => false | _ => true end) (groupby_level n (nlargest K) l))).
  Lemma tops_eq K l : tops K l = List.map (fun g => (g, xsum (nlargest K (List.map snd (filter (fun r => key_eqb (firstn n (fst r)) g) l)))))
    (filter (fun g => match nlargest K (List.map snd (filter (fun r => key_eqb (firstn n (fst r)) g) l)) with [] => false | _ => true end) (level_keys n l)).
  Proof. unfold groupby_level. induction (level_keys n l) as [|g ks IH]; cbn; auto. destruct (nlargest K _) eqn:E; auto. cbn. rewrite E. f_equal. exact IH. Qed.
  Lemma tops_same K : tops K (distribution n (wcol j w)) = tops K (distribution n fr).
  Proof.
    rewrite !tops_eq.
    assert (forall g, nlargest K (List.map snd (filter (fun r => key_eqb (firstn n (fst r)) g) (distribution n (wcol j w)))) = nlargest K (List.map snd (filter (fun r => key_eqb (firstn n (fst r)) g) (distribution n fr)))) as Hs.
    { intros g. destruct (dist_vals g) as [m Hm]. now apply (nlargest_padded K _ _ m). }
    rewrite (map_ext _ (fun g => (g, xsum (nlargest K (List.map snd (filter (fun r => key_eqb (firstn n (fst r)) g) (distribution n fr))))))) by (intros g; now rewrite Hs). f_equal.
    rewrite (filter_ext _ (fun g => match nlargest K (List.map snd (filter (fun r => key_eqb (firstn n (fst r)) g) (distribution n fr))) with [] => false | _ => true end)) by (intros g; now rewrite Hs).
    apply ksorted_ext; try (apply ssorted_filter, level_keys_sorted). intros g. rewrite !filter_In. split; intros [H1 H2]; (split; [|exact H2]); [|now apply level_more].
    destruct (in_dec (list_eq_dec string_dec) g (level_keys n (distribution n fr))) as [|Hn]; auto. exfalso.
    assert (filter (fun r => key_eqb (firstn n (fst r)) g) (distribution n fr) = []) as E0; [|rewrite E0 in H2; cbn in H2; destruct K; discriminate].
    apply filter_none. intros r Hr. unfold key_eqb. destruct list_eq_dec as [E|]; auto. destruct Hn. apply level_keys_In. destruct n; [left; split; auto; now rewrite <- E|]. right. split; [discriminate|]. eauto.
  Qed.
  Lemma op_top_k K : column_is j (wdiversity c n (TopK K) w) (top_k K n fr) NaN.
  Proof.
    destruct n as [|n'] eqn:En.
    - cbn [wdiversity].
      assert (column_is j [([], List.map (fun i => xsum (nlargest K (List.map (cell_at i) (wdistribution c 0 w)))) (seq 0 c))] [([], xsum (nlargest K (List.map snd (distribution 0 fr))))] NaN) as H.
      { split; [|intros k [<-|[]] Hk; destruct Hk; now left]. intros k [<-|[]]. split; [now left|]. rewrite wcol_cons. cbn [lookup]. rewrite (proj2 (key_eqb_eq _ _) eq_refl).
        cbn [fst]. rewrite (cell_seq (fun i => xsum (nlargest K (List.map (cell_at i) (wdistribution c 0 w))))) by exact Hj. cbn [lookup]. rewrite (proj2 (key_eqb_eq _ _) eq_refl). f_equal.
        assert (List.map (cell_at j) (wdistribution c 0 w) = List.map snd (distribution 0 (wcol j w))) as -> by (rewrite <- (wcol_distribution c j 0 w Hj); unfold wcol; now rewrite map_map).
        destruct (pads_vals _ _ 0 [] (pads_distribution _ _ 0 Hp)) as [m Hm]. apply (nlargest_padded K _ _ m). unfold vals in Hm. rewrite !group_def in Hm. cbn [firstn] in Hm. rewrite !filter_all in Hm by (intros; apply (proj2 (key_eqb_eq _ _) eq_refl)). exact Hm. }
      unfold top_k, groupby_level. cbn [level_keys List.map firstn]. rewrite filter_all by (intros; apply (proj2 (key_eqb_eq _ _) eq_refl)). exact H.
    - rewrite <- En in *. assert (top_k K n fr = tops K (distribution n fr)) as -> by (unfold top_k; now rewrite En). rewrite <- tops_same.
      replace (wdiversity c n (TopK K) w) with (concat_frames (List.map (fun i => tops K (wcol i (wdistribution c n w))) (seq 0 c))) by (cbn [wdiversity]; now rewrite En).
      apply pads_is. apply concat_pads.
      + rewrite <- (wcol_distribution c j n w Hj). apply (nth_seq (fun i => tops K (wcol i (wdistribution c n w)))).
      + rewrite tops_eq, map_map. cbn. rewrite map_id. apply NoDup_filter, level_nodup.
  Qed.
End Op.
