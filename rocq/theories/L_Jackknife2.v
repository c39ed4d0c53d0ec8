(** Trees of leave-one-out results, samples, standard errors. *)
From Coq Require Import Reals List Bool String Arith Lia Lra Sorted Permutation.
From Verif Require Import M_Num M_Frame M_Ops M_Slices S_Slices M_Leaf M_Jackknife S_Jackknife L_Frame L_OpsA L_OpsB L_Slices L_Slices2 L_Jackknife.
Import ListNotations.
Open Scope nat_scope.
Open Scope list_scope.

Lemma sum_or_count_incl agg df df' : sum_or_count agg df -> incl df' df -> sum_or_count agg df'.
Proof.
  intros [v [[-> H]| ->]] Hi; exists v; [left|right]; auto. split; auto. apply Forall_forall. intros r Hr.
  rewrite Forall_forall in H. auto.
Qed.
Lemma sums_and_counts_incl t df df' : sums_and_counts t df -> incl df' df -> sums_and_counts t df'.
Proof. intros H Hi. induction t; simpl in *; try tauto. eapply sum_or_count_incl; eauto. Qed.
Lemma Forall_incl {A} (P : A -> Prop) l l' : Forall P l -> incl l' l -> Forall P l'.
Proof. rewrite !Forall_forall. auto. Qed.
Lemma without_filter u x p rows : without u x (filter p rows) = filter p (without u x rows).
Proof. unfold without. apply filter_filter_comm. Qed.

Section Tree.
Variables (s : list string) (u : string).
Let n := List.length s.

Lemma fast_slice t : forall e df slices k x r, slicewise_tree t -> sums_and_counts t df -> Forall (fun r => lab r u <> None) df ->
  In (k ++ [x]) (group_keys (s ++ [u]) slices) -> List.length k = n ->
  populated t e (without u x (slice s k df)) -> compute_on t e (without u x (slice s k df)) = Some r ->
  exists R, compute_with (loo_leaf n slices) t (s ++ u :: e) df = Some R /\ restrict (S n) (k ++ [x]) R = r.
Proof.
  assert (forall (k : list string) x, List.length k = n -> List.length (k ++ [x]) = S n) as HL by (intros; rewrite app_length; simpl; lia).
  induction t as [agg|keep t IH|f t IH|f a IHa b IHb|ex ix op t IH]; intros e df slices k x r Hsl Hsc Hu Hx Hk Hpop Hr; simpl in *.
  - injection Hr as <-. eexists. split; [reflexivity|]. destruct (sum_or_count_additive _ _ Hsc) as [f Hf].
    eapply loo_leaf_slice; eauto. right. right. intros E. rewrite E in Hpop. apply Hpop. reflexivity.
  - assert (incl (filter keep df) df) as Hi by apply filter_incl.
    assert (without u x (slice s k (filter keep df)) = filter keep (without u x (slice s k df))) as E.
    { rewrite <- without_filter. unfold slice. now rewrite filter_filter_comm. }
    rewrite <- E in Hpop, Hr. eapply IH; eauto using sums_and_counts_incl, Forall_incl.
  - destruct (compute_on t e (without u x (slice s k df))) as [r'|] eqn:E; [|discriminate]. injection Hr as <-.
    destruct (IH e df slices k x r' Hsl Hsc Hu Hx Hk Hpop E) as [R [-> HR]]. eexists. split; [reflexivity|].
    rewrite <- HR. rewrite !restrict_eq, (group_map _ _ (fun q => f (snd q))), !map_map. reflexivity.
  - destruct Hsl as [Ha Hb], Hpop as [Pa Pb], Hsc as [Sa Sb].
    destruct (list_eq_dec string_dec (levels a) (levels b)); [|discriminate].
    destruct (compute_on a e (without u x (slice s k df))) as [ra|] eqn:Ea; [|discriminate].
    destruct (compute_on b e (without u x (slice s k df))) as [rb|] eqn:Eb; [|discriminate]. injection Hr as <-.
    destruct (IHa e df slices k x ra Ha Sa Hu Hx Hk Pa Ea) as [Ra [-> HRa]]. destruct (IHb e df slices k x rb Hb Sb Hu Hx Hk Pb Eb) as [Rb [-> HRb]].
    eexists. split; [reflexivity|]. rewrite align_slice by auto. now rewrite HRa, HRb.
  - destruct Hsl as [Hop Ht], Hpop as [Pt Pne].
    destruct (compute_on t (e ++ ex) (without u x (slice s k df))) as [c|] eqn:E; [|discriminate].
    destruct (IH (e ++ ex) df slices k x c Ht Hsc Hu Hx Hk Pt E) as [C [EC HC]]. rewrite <- app_assoc. cbn [app]. rewrite EC.
    replace (List.length (s ++ u :: e)) with (S n + List.length e) by (rewrite app_length; simpl; unfold n; lia). apply Hop; auto.
    + rewrite HC. intros ->. now apply Pne.
    + now rewrite HC.
Qed.
(** no leave-one-out slice but those of a unit occurring in a split *)
Lemma fast_keys t : forall e df slices R q, no_slices_added t -> compute_with (loo_leaf n slices) t (s ++ u :: e) df = Some R -> In q R ->
  In (firstn (S n) (fst q)) (group_keys (s ++ [u]) slices).
Proof.
  induction t as [agg|keep t IH|f t IH|f a IHa b IHb|ex ix op t IH]; intros e df slices R q Hns HR Hq; cbn [compute_with no_slices_added] in *.
  - injection HR as <-. unfold loo_leaf in Hq. apply in_map_iff in Hq as [g [<- Hg]]. cbn [fst]. destruct e as [|c e].
    + unfold n in Hg. rewrite loo_keys_nil in Hg. apply group_keys_In in Hg as Hg'. destruct Hg' as [[E _]|[_ [r [_ E]]]]; [destruct s; discriminate|].
      apply row_key_length in E. rewrite app_length in E. simpl in E. rewrite firstn_all2; auto. unfold n. lia.
    + apply loo_keys_In in Hg; [|discriminate]. destruct Hg as [k [x [y [g' [r [-> [Hk [H _]]]]]]]].
      change (k ++ x :: g') with (k ++ [x] ++ g'). rewrite app_assoc, firstn_app_len; auto. rewrite app_length. simpl. unfold n in *. lia.
  - eapply IH; eauto.
  - destruct (compute_with (loo_leaf n slices) t (s ++ u :: e) df) as [r'|] eqn:E; [|discriminate]. injection HR as <-.
    apply in_map_iff in Hq as [q' [<- Hq']]. cbn [fst]. eapply IH; eauto.
  - destruct Hns as [Na Nb]. destruct (list_eq_dec string_dec (levels a) (levels b)); [|discriminate].
    destruct (compute_with (loo_leaf n slices) a (s ++ u :: e) df) as [ra|] eqn:Ea; [|discriminate].
    destruct (compute_with (loo_leaf n slices) b (s ++ u :: e) df) as [rb|] eqn:Eb; [|discriminate]. injection HR as <-.
    unfold align in Hq. apply in_map_iff in Hq as [g [<- Hg]]. cbn [fst]. apply sort_uniq_In, in_app_iff in Hg as [Hg|Hg];
      apply in_map_iff in Hg as [q' [<- Hq']]; [eapply IHa|eapply IHb]; eauto.
  - destruct Hns as [No Nt]. destruct (compute_with (loo_leaf n slices) t ((s ++ u :: e) ++ ex) df) as [c|] eqn:E; [|discriminate].
    assert (List.length (s ++ u :: e) <> 0) as Hn by (rewrite app_length; simpl; lia).
    destruct (No _ _ _ _ Hn HR Hq) as [p [Hp Ek]]. rewrite <- app_assoc in E. cbn [app] in E.
    specialize (IH _ _ _ _ _ Nt E Hp). replace (firstn (S n) (fst q)) with (firstn (S n) (fst p)); auto.
    apply (f_equal (firstn (S n))) in Ek. rewrite !firstn_firstn, app_length, Nat.min_l in Ek by (simpl; unfold n; lia). exact Ek.
Qed.

(** the point estimate *)
Lemma total_leaf_eq agg e df : sum_or_count agg df -> Forall (fun r => lab r u <> None) df ->
  total_leaf n u agg (s ++ e) df = compute_leaf agg (s ++ e) df.
Proof.
  intros Hsc Hu. destruct (sum_or_count_additive _ _ Hsc) as [f Hf]. unfold total_leaf.
  rewrite firstn_app_len, skipn_app_len by reflexivity. cbn [app].
  assert (List.map fst (bucket_total n (s ++ u :: e) (compute_leaf agg (s ++ u :: e) df)) = group_keys (s ++ e) df) as HK.
  { unfold bucket_total. rewrite drop_at_app by reflexivity. unfold group_keys at 1. destruct (s ++ e) as [|c se] eqn:Ese; auto.
    rewrite map_map. cbn [fst]. rewrite map_id. apply ksorted_ext; try apply sort_uniq_sorted. intros q. rewrite !sort_uniq_In.
    rewrite keys_of_In. unfold compute_leaf. rewrite map_map. cbn [fst]. rewrite in_map_iff. rewrite <- Ese. split.
    - intros [p [<- Hp]]. apply bucket_keys in Hp as [r [Hr E]]. exists r. split; auto.
      apply row_key_unit in E as [a [y [b [-> [E1 [E2 E3]]]]]]. rewrite drop_at_app by (eapply row_key_length; eauto).
      now rewrite row_key_app, E1, E3.
    - intros [r [Hr E]]. rewrite row_key_app in E. destruct (row_key s r) as [a|] eqn:E1; [|discriminate].
      destruct (row_key e r) as [b|] eqn:E2; [|discriminate]. injection E as <-. rewrite Forall_forall in Hu.
      destruct (lab r u) as [y|] eqn:E3; [|destruct (Hu r Hr E3)]. exists (a ++ y :: b). split.
      + apply drop_at_app. eapply row_key_length; eauto.
      + apply bucket_keys. exists r. split; auto. now apply row_key_unit_mk. }
  unfold compute_leaf at 2. rewrite <- HK.
  assert (NoDup (List.map fst (bucket_total n (s ++ u :: e) (compute_leaf agg (s ++ u :: e) df)))) as HN
    by (rewrite HK; apply L_Frame.ksorted_NoDup, group_keys_sorted).
  rewrite map_map. rewrite <- (map_id (bucket_total n (s ++ u :: e) (compute_leaf agg (s ++ u :: e) df))) at 1.
  apply map_ext_in. intros [q v] Hq. cbn [fst]. f_equal.
  rewrite <- (lookup_In q v _ HN Hq).
  assert (In q (group_keys (s ++ e) df)) as Hq' by (rewrite <- HK; apply in_map_iff; exists (q, v); auto).
  assert (exists k g, q = k ++ g /\ List.length k = n /\ List.length g = List.length e /\ (s ++ e = [] \/ slice (s ++ e) q df <> [])) as [k [g [-> [Hk [Hg Hne]]]]].
  { apply group_keys_In in Hq' as [[E ->]|[_ [r [Hr E]]]].
    - apply app_eq_nil in E as E'. destruct E' as [-> ->]. exists [], []. auto.
    - pose proof E as E0. rewrite row_key_app in E. destruct (row_key s r) as [a|] eqn:E1; [|discriminate]. destruct (row_key e r) as [b|] eqn:E2; [|discriminate].
      injection E as <-. exists a, b. split; auto. split; [eapply row_key_length; eauto|]. split; [eapply row_key_length; eauto|].
      right. apply slice_nonempty. exists r. auto. }
  eapply lookup_total; eauto.
Qed.
Lemma fast_point_eq t : forall e df, sums_and_counts t df -> Forall (fun r => lab r u <> None) df ->
  compute_with (total_leaf n u) t (s ++ e) df = compute_on t (s ++ e) df.
Proof.
  induction t as [agg|keep t IH|f t IH|f a IHa b IHb|ex ix op t IH]; intros e df Hsc Hu; simpl in *.
  - now rewrite total_leaf_eq.
  - assert (incl (filter keep df) df) as Hi by apply filter_incl. apply IH; eauto using sums_and_counts_incl, Forall_incl.
  - now rewrite IH.
  - destruct Hsc. now rewrite IHa, IHb.
  - rewrite <- app_assoc. now rewrite IH.
Qed.

(** samples *)
Lemma is_unit_without x rows : filter (fun r => negb (is_unit u (Some x) r)) rows = without u x rows.
Proof.
  unfold without. apply filter_ext. intros r. unfold is_unit. destruct (lab r u) as [y|]; auto. now destruct (string_dec y x).
Qed.
Lemma loo_sample_slice df x k : List.length k = n -> 
  slice s k (loo_sample s u df (Some x)) =
  match s with
  | [] => without u x (slice s k df)
  | _ => if existsb (fun r => is_unit u (Some x) r && has_key s k r) df then without u x (slice s k df) else []
  end.
Proof.
  intros Hk. unfold loo_sample. rewrite is_unit_without.
  assert (slice s k (without u x df) = without u x (slice s k df)) as E0 by (unfold slice; now rewrite without_filter).
  destruct s as [|c s'] eqn:Es; auto. rewrite <- Es in *.
  set (here := unique_slices s (filter (is_unit u (Some x)) df)).
  assert (In k here <-> existsb (fun r => is_unit u (Some x) r && has_key s k r) df = true) as Hin.
  { unfold here, unique_slices. rewrite sort_uniq_In, keys_of_In, existsb_exists. split.
    - intros [r [Hr E]]. apply filter_In in Hr as [Hr Hx]. exists r. split; auto. rewrite Hx. now apply has_key_iff.
    - intros [r [Hr E]]. apply andb_true_iff in E as [E1 E2]. exists r. split; [now apply filter_In|]. now apply has_key_iff. }
  assert (incl here (unique_slices s df)) as Hincl.
  { intros q Hq. unfold here, unique_slices in *. rewrite sort_uniq_In, keys_of_In in *. destruct Hq as [r [Hr E]]. apply filter_In in Hr as [Hr _]. eauto. }
  assert (NoDup here) as Hnd by (apply L_Frame.ksorted_NoDup, sort_uniq_sorted).
  destruct (Nat.eqb (List.length here) (List.length (unique_slices s df))) eqn:EL.
  - apply Nat.eqb_eq in EL. rewrite E0.
    assert (incl (unique_slices s df) here) as Hback by (apply NoDup_length_incl; auto; lia).
    destruct (existsb (fun r => is_unit u (Some x) r && has_key s k r) df) eqn:EX; auto.
    destruct (without u x (slice s k df)) as [|r l] eqn:E; auto. exfalso.
    assert (In r (without u x (slice s k df))) as Hr by (rewrite E; now left). apply without_In in Hr as [Hr _]. apply slice_In in Hr as [Hr Hr2].
    assert (In k here) as Hk' by (apply Hback; unfold unique_slices; rewrite sort_uniq_In, keys_of_In; eauto).
    apply Hin in Hk'. congruence.
  - destruct (existsb (fun r => is_unit u (Some x) r && has_key s k r) df) eqn:EX.
    + rewrite <- E0. unfold slice. rewrite filter_filter. apply filter_ext_in. intros r _. destruct (has_key s k r) eqn:Ek; [|now rewrite andb_false_r].
      apply has_key_iff in Ek. rewrite Ek. fold (mem k here). assert (mem k here = true) as -> by (apply mem_In; tauto). reflexivity.
    + unfold slice. rewrite filter_filter. destruct (filter _ (without u x df)) as [|r l] eqn:E; auto. exfalso.
      assert (In r (r :: l)) as Hr by now left. rewrite <- E in Hr. apply filter_In in Hr as [_ Hr]. apply andb_true_iff in Hr as [H1 H2].
      apply has_key_iff in H2. rewrite H2 in H1. fold (mem k here) in H1. apply mem_In, Hin in H1. congruence.
Qed.
Lemma occurs_existsb k x df : occurs s u k x df <-> existsb (fun r => is_unit u (Some x) r && has_key s k r) df = true.
Proof.
  unfold occurs. rewrite existsb_exists. split; intros [r H]; exists r.
  - destruct H as [H1 [H2 H3]]. split; auto. apply andb_true_iff. split; [|now apply has_key_iff]. unfold is_unit. rewrite H3. now destruct (string_dec x x).
  - destruct H as [H1 H2]. apply andb_true_iff in H2 as [H2 H3]. apply has_key_iff in H3. repeat split; auto. unfold is_unit in H2.
    destruct (lab r u) as [y|]; [|discriminate]. destruct (string_dec y x); [congruence|discriminate].
Qed.
Lemma sample_here df x k : occurs s u k x df -> List.length k = n -> slice s k (loo_sample s u df (Some x)) = without u x (slice s k df).
Proof. intros H Hk. rewrite loo_sample_slice by assumption. apply occurs_existsb in H. rewrite H. now destruct s. Qed.
Lemma sample_not_here df x k : ~ occurs s u k x df -> List.length k = n -> s <> [] -> slice s k (loo_sample s u df (Some x)) = [].
Proof.
  intros H Hk Hs. rewrite loo_sample_slice by assumption. destruct (existsb (fun r => is_unit u (Some x) r && has_key s k r) df) eqn:E.
  - apply occurs_existsb in E. contradiction.
  - destruct s; [contradiction|reflexivity].
Qed.
End Tree.
