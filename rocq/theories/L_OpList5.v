(** The index of every result: no key twice, one label per column (C74). *)
From Coq Require Import Reals List Bool String Arith Permutation Sorted Lia Lra.
From Verif Require Import M_Num M_Frame S_Ops M_Ops L_Frame L_OpsA L_OpsB L_SqlOps3 M_SqlGlobal M_SqlLeaf M_SqlOps M_SqlList M_OpList S_OpList L_OpList1 L_OpList2 L_OpList3 L_OpList4.
Import ListNotations.
Open Scope list_scope.

Definition indexed (n : nat) (fr : rframe) : Prop := NoDup (List.map fst fr) /\ forall k, In k (List.map fst fr) -> List.length k = n.
Lemma row_key_length cols r : forall k, M_Frame.row_key cols r = Some k -> List.length k = List.length cols.
Proof. induction cols as [|c cols IH]; cbn; intros k H; [injection H as <-; auto|]. destruct (lab r c), (M_Frame.row_key cols r) eqn:E; try discriminate. injection H as <-. cbn. now rewrite (IH l). Qed.
Lemma keys_of_length cols df k : In k (keys_of cols df) -> List.length k = List.length cols.
Proof. induction df as [|r df IH]; cbn; [easy|]. destruct (M_Frame.row_key cols r) eqn:E; auto. intros [<-|H]; auto. now apply (row_key_length cols r). Qed.
Lemma group_keys_length cols df k : In k (group_keys cols df) -> List.length k = List.length cols.
Proof. unfold group_keys. destruct cols; [intros [<-|[]]; auto|]. rewrite sort_uniq_In. apply keys_of_length. Qed.
Lemma leaf_indexed agg cols df : indexed (List.length cols) (compute_leaf agg cols df).
Proof.
  unfold indexed, compute_leaf. rewrite map_map. cbn. rewrite map_id. split; [|apply group_keys_length].
  unfold group_keys. destruct cols; [repeat constructor; auto|]. apply ksorted_NoDup, sort_uniq_sorted.
Qed.
Lemma sort_uniq_nodup l : NoDup (sort_uniq l). Proof. apply ksorted_NoDup, sort_uniq_sorted. Qed.
Lemma align_indexed op n a b : indexed n a -> indexed n b -> indexed n (align op a b).
Proof.
  intros [_ Ha] [_ Hb]. unfold indexed, align. rewrite map_map. cbn. rewrite map_id. split; [apply sort_uniq_nodup|]. intros k. rewrite sort_uniq_In, in_app_iff. intros [H|H]; auto.
Qed.
Lemma map_indexed n (f : list string * num -> num) a : indexed n a -> indexed n (List.map (fun r => (fst r, f r)) a).
Proof. unfold indexed. now rewrite map_map. Qed.
Lemma compute_indexed parse m cols : forall df, indexed (List.length cols) (compute parse m cols df).
Proof. induction m; intros df; cbn; auto using leaf_indexed, align_indexed; apply map_indexed; auto. Qed.
Lemma sub_indexed n (a b : rframe) : indexed n a -> (NoDup (List.map fst b)) -> (forall k, In k (List.map fst b) -> In k (List.map fst a)) -> indexed n b.
Proof. intros [_ H] Hd Hi. split; auto. Qed.
Lemma level_indexed {A} n (agg : list num -> A) m fr : indexed m fr -> (n <= m)%nat -> NoDup (List.map fst (groupby_level n agg fr)) /\ forall k, In k (List.map fst (groupby_level n agg fr)) -> List.length k = n.
Proof.
  intros [_ H] Hm. unfold groupby_level. rewrite map_map. cbn. rewrite map_id. split; [apply ksorted_NoDup, level_keys_sorted|].
  intros k. rewrite level_keys_In. intros [[-> ->]|[_ (r & Hr & <-)]]; auto. rewrite firstn_length, H; [lia|]. now apply in_map.
Qed.

Section Index.
  Variable parse : string -> cond.
  Variable psort : cum_how -> bool -> nat -> rframe -> rframe.
  Variable lsort : bool -> nat -> wframe -> wframe.
  Hypothesis Hs : frames_sort psort lsort.
  Lemma dist_indexed m n fr : indexed m fr -> indexed m (distribution n fr).
  Proof. intros H. unfold distribution. now apply (map_indexed m (fun r => xdiv (snd r) (lookup (firstn n (fst r)) (groupby_level n xsum fr)))). Qed.
  Lemma cum_indexed m n s fr : indexed m fr -> (match s with ByOrder o => NoDup o | BySort f => forall l, Permutation (f l) l end) -> indexed m (cumulative_distribution n s fr).
  Proof.
    intros H Hc. apply (sub_indexed m fr); auto; unfold cumulative_distribution.
    - apply (dist_indexed m n) in H as [H _].
      assert (NoDup (List.map fst (match s with ByOrder o => reindex_order n o (distribution n fr) | BySort f => f (distribution n fr) end))) as H'.
      { destruct s as [o|f]; [unfold reindex_order; apply NoDup_map_filter; now apply (reindexed_nodup n)|]. apply (Permutation_NoDup (l := List.map fst (distribution n fr))); auto. apply Permutation_map. symmetry. apply Hc. }
      apply (cumsum_nodup n) in H'. apply (Permutation_NoDup (l := List.map fst (group_cumsum n (match s with ByOrder o => reindex_order n o (distribution n fr) | BySort f => f (distribution n fr) end)))); auto.
      apply Permutation_map. symmetry. now apply sort_by_level_perm.
    - intros k. rewrite level_keys_keep. unfold group_cumsum. rewrite cumsum_from_keys.
      assert (List.map fst (distribution n fr) = List.map fst fr) as Ed by (unfold distribution; now rewrite map_map). destruct s as [o|f].
      + unfold reindex_order. intros Hk. rewrite <- Ed. apply in_map_iff in Hk as (r & <- & Hr). apply filter_In in Hr as [Hr _]. apply in_flat_map in Hr as (x & _ & Hr). apply filter_In in Hr as [Hr _]. now apply in_map.
      + intros Hk. rewrite <- Ed. apply (Permutation_in _ (Permutation_map fst (Hc _))). exact Hk.
  Qed.
  Lemma change_indexed f m n nc base inc fr res : indexed m fr -> compare_with_base f n nc base inc fr = Some res -> indexed m res.
  Proof.
    unfold compare_with_base. destruct (xs n nc base fr) as [b|]; [|discriminate]. intros H E. injection E as <-.
    apply (map_indexed m (fun r => f (snd r) (lookup (drop_cond n nc (fst r)) b))) in H. destruct inc; auto.
    apply (sub_indexed m _ _ H); [apply NoDup_map_filter, H|]. intros k Hk. apply in_map_iff in Hk as (r & <- & Hr). apply filter_In in Hr as [Hr _]. now apply in_map.
  Qed.
  Lemma div_indexed d m n fr : indexed m fr -> (n <= m)%nat -> indexed n (match d with HHI => hhi n fr | Entropy => entropy n fr | TopK k => top_k k n fr | Nxx s => nxx s n fr end).
  Proof.
    intros H Hm. apply (dist_indexed m n) in H. destruct d; try exact (level_indexed n _ m _ H Hm).
    unfold top_k. pose proof (level_indexed n (nlargest k) m _ H Hm) as [H1 H2]. destruct n; unfold indexed; rewrite map_map; cbn [fst]; [now split|]. split.
    - now apply NoDup_map_filter.
    - intros q Hq. apply H2. apply in_map_iff in Hq as (r & <- & Hr). apply filter_In in Hr as [Hr _]. now apply in_map.
  Qed.
  Lemma psort_perm how asc n l : (forall o, how <> CumOrder o) -> Permutation (psort how asc n l) l.
  Proof. destruct Hs as (H1 & H2 & _). destruct how as [|o|]; intros H; [apply H1|now destruct (H o)|apply H2]. Qed.
  Lemma op_indexed m : forall by_ df fr, regular m -> op_compute parse psort m by_ df = Some fr -> indexed (List.length by_ + List.length (extra_idx m)) fr.
  Proof.
    induction m as [b name|over c IH w|over how asc c IH w|p cond base inc c IH w|d over c IH w|op a IHa b IHb name w|op r c IH name w|op c IH r name w]; intros by_ df fr Ho H; cbn [op_compute extra_idx regular] in *.
    - injection H as <-. cbn. rewrite Nat.add_0_r. apply compute_indexed.
    - destruct (op_compute parse psort c (by_ ++ over) _) as [g|] eqn:E; [|discriminate]. injection H as <-. apply IH in E; auto. rewrite app_length in *. rewrite Nat.add_assoc. now apply dist_indexed.
    - destruct (op_compute parse psort c (by_ ++ over) _) as [g|] eqn:E; [|discriminate]. injection H as <-. destruct Ho as [Ho1 Ho]. apply IH in E; auto. rewrite app_length in *. rewrite Nat.add_assoc. apply cum_indexed; auto.
      destruct how as [|o|]; [intros l; apply psort_perm; discriminate| |intros l; apply psort_perm; discriminate]. destruct asc; auto. now apply NoDup_rev.
    - destruct (op_compute parse psort c (by_ ++ cond) _) as [g|] eqn:E; [|discriminate]. apply IH in E; auto. rewrite app_length in *. rewrite Nat.add_assoc. destruct p; now apply (change_indexed _ _ _ _ _ _ _ _ E) in H.
    - destruct (op_compute parse psort c (by_ ++ over) _) as [g|] eqn:E; [|discriminate]. injection H as <-. destruct Ho as [Ho1 Ho]. apply IH in E; auto. rewrite app_length in *. rewrite Ho1. cbn. rewrite Nat.add_0_r. apply (div_indexed d) with (n := List.length by_) in E; [|lia]. now destruct d.
    - destruct (op_compute parse psort a by_ _) as [fa|] eqn:Ea; [|discriminate]. destruct (op_compute parse psort b by_ _) as [fb|] eqn:Eb; [|discriminate]. injection H as <-. destruct Ho as [Hoa Hob]. apply IHa in Ea; auto. apply IHb in Eb; auto.
      unfold align_levels. rewrite !app_length. destruct (Nat.ltb_spec (List.length (extra_idx a)) (List.length (extra_idx b))) as [Hl|Hl].
      + replace (Nat.compare _ _) with Lt by (symmetry; apply Nat.compare_lt_iff; lia). now apply (map_indexed _ (fun kv => num_op op (lookup (project (by_ ++ extra_idx b) (by_ ++ extra_idx a) (fst kv)) fa) (snd kv))).
      + destruct (Nat.compare_spec (List.length by_ + List.length (extra_idx a)) (List.length by_ + List.length (extra_idx b))) as [He|He|He]; [|lia|].
        * apply align_indexed; auto. now rewrite He.
        * now apply (map_indexed _ (fun kv => num_op op (snd kv) (lookup (project (by_ ++ extra_idx a) (by_ ++ extra_idx b) (fst kv)) fb))).
    - destruct (op_compute parse psort c by_ _) as [g|] eqn:E; [|discriminate]. injection H as <-. apply IH in E; auto. now apply map_indexed.
    - destruct (op_compute parse psort c by_ _) as [g|] eqn:E; [|discriminate]. injection H as <-. apply IH in E; auto. now apply map_indexed.
  Qed.
End Index.
