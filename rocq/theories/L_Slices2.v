(** C22: no slices but those in the data. *)
From Coq Require Import Reals List Bool String Arith Lia Sorted.
From Verif Require Import M_Num M_Frame M_Ops M_Slices S_Slices S_Ops L_Frame L_OpsA L_OpsB L_Slices.
Import ListNotations.
Open Scope nat_scope.
Open Scope list_scope.

Lemma compute_on_keys t : forall s e df R q, no_slices_added t -> s <> [] -> compute_on t (s ++ e) df = Some R -> In q R ->
  slice s (firstn (List.length s) (fst q)) df <> [].
Proof.
  induction t as [agg|keep t IH|f t IH|f a IHa b IHb|ex ix op t IH]; intros s e df R q Hns Hs HR Hq; simpl in *.
  - injection HR as <-. unfold compute_leaf in Hq. apply in_map_iff in Hq as [g [<- Hg]]. cbn [fst].
    apply group_keys_In in Hg as [[E _]|[_ [r [Hr Hg]]]]; [apply app_eq_nil in E as [E _]; contradiction|].
    apply slice_nonempty. exists r. split; auto. rewrite row_key_app in Hg. destruct (row_key s r) as [x|] eqn:Ex; [|discriminate].
    destruct (row_key e r) as [y|] eqn:Ey; [|discriminate]. injection Hg as <-. apply row_key_length in Ex.
    now rewrite firstn_app_len.
  - specialize (IH _ _ _ _ _ Hns Hs HR Hq). apply slice_nonempty in IH as [r [Hr Hk]]. apply filter_In in Hr as [Hr _].
    apply slice_nonempty. eauto.
  - destruct (compute_on t (s ++ e) df) as [r'|] eqn:E; [|discriminate]. injection HR as <-.
    apply in_map_iff in Hq as [q' [<- Hq']]. cbn [fst]. eapply IH; eauto.
  - destruct Hns as [Na Nb]. destruct (list_eq_dec string_dec (levels a) (levels b)); [|discriminate].
    destruct (compute_on a (s ++ e) df) as [ra|] eqn:Ea; [|discriminate].
    destruct (compute_on b (s ++ e) df) as [rb|] eqn:Eb; [|discriminate]. injection HR as <-.
    unfold align in Hq. apply in_map_iff in Hq as [g [<- Hg]]. cbn [fst]. apply sort_uniq_In, in_app_iff in Hg as [Hg|Hg];
      apply in_map_iff in Hg as [q' [<- Hq']]; [eapply IHa|eapply IHb]; eauto.
  - destruct Hns as [No Nt]. destruct (compute_on t ((s ++ e) ++ ex) df) as [c|] eqn:E; [|discriminate].
    assert (List.length (s ++ e) <> 0) as Hn by (rewrite app_length; destruct s; [contradiction|simpl; lia]).
    destruct (No _ _ _ _ Hn HR Hq) as [p [Hp Ek]]. rewrite <- app_assoc in E.
    specialize (IH _ _ _ _ _ Nt Hs E Hp). replace (firstn (List.length s) (fst q)) with (firstn (List.length s) (fst p)); auto.
    apply (f_equal (firstn (List.length s))) in Ek. rewrite !firstn_firstn, app_length, Nat.min_l in Ek by lia. exact Ek.
Qed.
Lemma groupby_level_no_slices (agg : list num -> num) n c q : n <> 0 -> In q (groupby_level n agg c) ->
  exists p, In p c /\ firstn n (fst p) = firstn n (fst q).
Proof.
  intros Hn H. unfold groupby_level in H. apply in_map_iff in H as [g [<- Hg]]. apply level_keys_In in Hg as [[E _]|[_ [r [Hr E]]]]; [lia|].
  exists r. split; auto. cbn [fst]. rewrite <- E. now rewrite firstn_firstn, Nat.min_id.
Qed.
Lemma distribution_no_slices n c p : In p (distribution n c) -> exists q, In q c /\ fst q = fst p.
Proof. unfold distribution. intros H. apply in_map_iff in H as [q [<- Hq]]. exists q. auto. Qed.
Lemma no_slices_distribution : adds_no_slices (fun n c => Some (distribution n c)).
Proof. intros n c R q Hn E Hq. injection E as <-. apply distribution_no_slices in Hq as [p [Hp E]]. exists p. split; congruence. Qed.
Lemma no_slices_agg (agg : list num -> num) : adds_no_slices (fun n c => Some (groupby_level n agg (distribution n c))).
Proof.
  intros n c R q Hn E Hq. injection E as <-. apply groupby_level_no_slices in Hq as [p [Hp E]]; auto.
  apply distribution_no_slices in Hp as [p' [Hp' E']]. exists p'. split; congruence.
Qed.
Lemma no_slices_top_k k : adds_no_slices (fun n c => Some (top_k k n c)).
Proof.
  intros n c R q Hn E Hq. injection E as <-. unfold top_k in Hq. apply in_map_iff in Hq as [g [<- Hg]]. cbn [fst].
  assert (In g (groupby_level n (nlargest k) (distribution n c))) as Hg' by (destruct n; [exact Hg|now apply filter_In in Hg]).
  unfold groupby_level in Hg'. apply in_map_iff in Hg' as [h [<- Hh]]. cbn [fst].
  apply level_keys_In in Hh as [[E _]|[_ [r [Hr E]]]]; [lia|].
  apply distribution_no_slices in Hr as [p [Hp E']]. exists p. split; auto. rewrite <- E, E', firstn_firstn, Nat.min_id. reflexivity.
Qed.
Lemma no_slices_compare f nc base incl : adds_no_slices (fun n c => compare_with_base f n nc base incl c).
Proof.
  intros n c R q Hn E Hq. unfold compare_with_base in E. destruct (xs n nc base c) as [b|]; [|discriminate]. injection E as <-.
  assert (In q (List.map (fun r => (fst r, f (snd r) (lookup (drop_cond n nc (fst r)) b))) c)) as H
    by (destruct incl; [exact Hq|now apply filter_In in Hq]).
  apply in_map_iff in H as [p [<- Hp]]. exists p. auto.
Qed.
Lemma cumsum_from_keys n l : forall seen q, In q (cumsum_from n seen l) -> exists p, In p l /\ fst p = fst q.
Proof.
  induction l as [|r l IH]; intros seen q; cbn [cumsum_from]; [intros []|]. intros [<-|H].
  - exists r. cbn [fst]. split; auto. now left.
  - destruct (IH _ _ H) as [p [Hp E]]. exists p. split; auto. now right.
Qed.
Lemma no_slices_cumdist (s : nat -> cum_sort) :
  (forall n f l q, s n = BySort f -> In q (f l) -> In q l) ->
  adds_no_slices (fun n c => Some (cumulative_distribution n (s n) c)).
Proof.
  intros Hs n c R q Hn E Hq. injection E as <-. unfold cumulative_distribution in Hq.
  rewrite sort_by_level_eq in Hq. apply in_flat_map in Hq as [g [_ Hq]]. apply group_In in Hq as [Hq _].
  apply cumsum_from_keys in Hq as [p [Hp E]].
  assert (In p (distribution n c)) as Hd.
  { destruct (s n) as [o|f] eqn:Es.
    - unfold reindex_order in Hp. apply filter_In in Hp as [Hp _]. apply in_flat_map in Hp as [x [_ Hp]]. now apply filter_In in Hp.
    - eapply Hs; eauto. }
  apply distribution_no_slices in Hd as [p' [Hp' E']]. exists p'. split; congruence.
Qed.
Lemma sort_rows_In leb n l q : In q (sort_rows leb n l) -> In q l.
Proof.
  induction l as [|r l IH]; auto. change (sort_rows leb n (r :: l)) with (insert_row leb n r (sort_rows leb n l)).
  intros H. apply insert_row_In in H as [->|H]; [now left|right; auto].
Qed.
