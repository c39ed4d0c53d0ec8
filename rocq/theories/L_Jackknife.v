(** Leave-one-out results from bucket totals. *)
From Coq Require Import Reals List Bool String Arith Lia Lra Sorted.
From Verif Require Import M_Num M_Frame M_Ops M_Slices S_Slices M_Leaf M_Jackknife S_Jackknife L_Frame L_OpsA L_OpsB L_Slices L_Slices2.
Import ListNotations.
Open Scope nat_scope.
Open Scope list_scope.

Definition additive (agg : table -> num) (f : drow -> R) (df : table) : Prop :=
  forall rows, incl rows df -> agg rows = Fin (Rsum (List.map f rows)).
Lemma sum_or_count_additive agg df : sum_or_count agg df -> exists f, additive agg f df.
Proof.
  intros [v [[-> H]| ->]].
  - exists (fun r => match val r v with Fin a => a | _ => 0%R end). intros rows Hi. unfold agg_sum, column.
    assert (Forall (fun r => no_inf (val r v)) rows) as Hr by (apply Forall_forall; intros r Hr; rewrite Forall_forall in H; auto).
    rewrite xsum_finite by (now apply Forall_map). f_equal. clear Hi. induction Hr as [|r rows Hx Hr IH]; auto. simpl.
    destruct (val r v) as [a| | |] eqn:E; simpl; rewrite IH; try reflexivity; try ring; destruct Hx; congruence.
  - exists (fun r => if is_nan (val r v) then 0%R else 1%R). intros rows _. unfold agg_count, column, count_present. f_equal.
    induction rows as [|r rows IH]; auto. cbn [map filter Rsum]. destruct (is_nan (val r v)); cbn [negb].
    + rewrite IH. ring.
    + cbn [List.length]. rewrite S_INR, IH. ring.
Qed.
Lemma additive_incl agg f df df' : additive agg f df -> incl df' df -> additive agg f df'.
Proof. intros H Hi rows Hr. apply H. eapply incl_tran; eauto. Qed.
Lemma filter_incl {A} (p : A -> bool) l : incl (filter p l) l.
Proof. intros x H. now apply filter_In in H. Qed.

Definition mem (k : list string) (K : list (list string)) : bool := existsb (key_eqb k) K.
Lemma mem_In k K : mem k K = true <-> In k K.
Proof.
  unfold mem. rewrite existsb_exists. split.
  - intros [x [H E]]. apply key_eqb_eq in E. now subst.
  - intros H. exists k. split; auto. apply key_eqb_refl.
Qed.
Lemma Rsum_plus {A} (f g : A -> R) l : Rsum (List.map (fun x => f x + g x)%R l) = (Rsum (List.map f l) + Rsum (List.map g l))%R.
Proof. induction l as [|x l IH]; simpl; [ring|]. rewrite IH. ring. Qed.
Lemma Rsum_indicator (c : R) q K : NoDup K ->
  Rsum (List.map (fun k => if key_eqb q k then c else 0%R) K) = if mem q K then c else 0%R.
Proof.
  induction 1 as [|k K Hk HN IH]; auto. cbn [map Rsum]. rewrite IH. unfold mem. cbn [existsb]. fold (mem q K).
  destruct (key_eqb q k) eqn:E; cbn [orb].
  - apply key_eqb_eq in E. subst k. destruct (mem q K) eqn:Em; [apply mem_In in Em; contradiction|]. ring.
  - ring.
Qed.
Lemma sum_over_keys (f : drow -> R) cols df K : NoDup K ->
  Rsum (List.map (fun q => Rsum (List.map f (slice cols q df))) K) =
  Rsum (List.map f (filter (fun r => match row_key cols r with Some q => mem q K | None => false end) df)).
Proof.
  intros HN. induction df as [|r df IH].
  - simpl. clear HN. induction K; simpl; auto. rewrite IHK. ring.
  - transitivity (Rsum (List.map (fun q => (match row_key cols r with Some q' => if key_eqb q' q then f r else 0 | None => 0 end
        + Rsum (List.map f (slice cols q df)))%R) K)).
    + f_equal. apply map_ext. intros q. unfold slice. cbn [filter]. unfold has_key at 1. destruct (row_key cols r) as [q'|]; [|ring].
      destruct (key_eqb q' q); cbn [map Rsum]; ring.
    + rewrite Rsum_plus, IH. cbn [filter]. destruct (row_key cols r) as [q'|].
      * rewrite Rsum_indicator by assumption. destruct (mem q' K); cbn [map Rsum]; ring.
      * assert (Rsum (List.map (fun _ : list string => 0%R) K) = 0%R) as -> by (clear; induction K; simpl; auto; rewrite IHK; ring). ring.
Qed.
Lemma xsum_Fin {A} (h : A -> R) l : xsum (List.map (fun x => Fin (h x)) l) = Fin (Rsum (List.map h l)).
Proof. rewrite xsum_finite; [now rewrite finite_values_map_Fin|]. apply Forall_map, Forall_forall. intros x _. split; discriminate. Qed.
Lemma filter_ext_in' {A} (p q : A -> bool) l : (forall x, In x l -> p x = q x) -> filter p l = filter q l.
Proof. apply filter_ext_in. Qed.

Lemma drop_at_app n (k : list string) x g : List.length k = n -> drop_at n (k ++ x :: g) = k ++ g.
Proof.
  intros H. unfold drop_at. rewrite firstn_app_len by assumption. f_equal.
  change (k ++ x :: g) with (k ++ [x] ++ g). rewrite app_assoc. apply skipn_app_len. rewrite app_length. simpl. lia.
Qed.
Lemma row_key_unit s u e r q : row_key (s ++ u :: e) r = Some q ->
  exists a y b, q = a ++ y :: b /\ row_key s r = Some a /\ lab r u = Some y /\ row_key e r = Some b.
Proof.
  rewrite row_key_app. destruct (row_key s r) as [a|]; [|discriminate]. cbn [row_key].
  destruct (lab r u) as [y|]; [|discriminate]. destruct (row_key e r) as [b|]; [|discriminate]. intros E. injection E as <-.
  exists a, y, b. auto.
Qed.
Lemma row_key_unit_mk s u e r a y b : row_key s r = Some a -> lab r u = Some y -> row_key e r = Some b ->
  row_key (s ++ u :: e) r = Some (a ++ y :: b).
Proof. intros H1 H2 H3. rewrite row_key_app, H1. cbn [row_key]. now rewrite H2, H3. Qed.

Section Loo.
Variables (s : list string) (u : string) (agg : table -> num) (f : drow -> R).
Let n := List.length s.

Lemma slice_incl cols k df : incl (slice cols k df) df. Proof. apply filter_incl. Qed.
Lemma bucket_keys e df q : In q (group_keys (s ++ u :: e) df) <-> exists r, In r df /\ row_key (s ++ u :: e) r = Some q.
Proof.
  rewrite group_keys_In. split.
  - intros [[E _]|[_ H]]; auto. destruct s; discriminate.
  - intros H. right. split; auto. destruct s; discriminate.
Qed.

Lemma xsum_buckets e df (P : list string -> bool) : additive agg f df ->
  xsum (List.map snd (filter (fun q => P (fst q)) (compute_leaf agg (s ++ u :: e) df))) =
  Fin (Rsum (List.map f (filter (fun r => match row_key (s ++ u :: e) r with Some q => P q | None => false end) df))).
Proof.
  intros Ha. unfold compute_leaf.
  assert (forall K, List.map snd (filter (fun q : list string * num => P (fst q)) (List.map (fun k => (k, agg (slice (s ++ u :: e) k df))) K)) =
    List.map (fun k => Fin (Rsum (List.map f (slice (s ++ u :: e) k df)))) (filter P K)) as ->.
  { induction K as [|k K IH]; auto. cbn [map filter fst]. destruct (P k); cbn [map snd]; rewrite IH; auto. f_equal. apply Ha, slice_incl. }
  rewrite xsum_Fin, sum_over_keys by (apply NoDup_filter, L_Frame.ksorted_NoDup, group_keys_sorted).
  do 2 f_equal. f_equal. apply filter_ext_in. intros r Hr. destruct (row_key (s ++ u :: e) r) as [q|] eqn:E; auto.
  destruct (P q) eqn:EP.
  - apply mem_In, filter_In. split; auto. apply bucket_keys. eauto.
  - apply not_true_is_false. intros H. apply mem_In, filter_In in H as [_ H]. congruence.
Qed.

Lemma lookup_total e df k g : additive agg f df -> Forall (fun r => lab r u <> None) df ->
  List.length k = n -> List.length g = List.length e -> (s ++ e = [] \/ slice (s ++ e) (k ++ g) df <> []) ->
  lookup (k ++ g) (bucket_total n (s ++ u :: e) (compute_leaf agg (s ++ u :: e) df)) = agg (slice (s ++ e) (k ++ g) df).
Proof.
  intros Ha Hu Hk Hg Hne. unfold bucket_total. rewrite drop_at_app by reflexivity.
  rewrite (Ha (slice (s ++ e) (k ++ g) df)) by apply slice_incl.
  assert (forall r, In r df -> row_key (s ++ e) r = Some (k ++ g) -> exists y, row_key (s ++ u :: e) r = Some (k ++ y :: g)) as Hrow.
  { intros r Hr E. rewrite row_key_app in E. destruct (row_key s r) as [a|] eqn:E1; [|discriminate].
    destruct (row_key e r) as [b|] eqn:E2; [|discriminate]. injection E as E. apply app_len_inj in E as [-> ->].
    - rewrite Forall_forall in Hu. destruct (lab r u) as [y|] eqn:E3; [|destruct (Hu r Hr E3)]. exists y. now apply row_key_unit_mk.
    - apply row_key_length in E1. unfold n in Hk. congruence. }
  destruct (s ++ e) as [|c se] eqn:Ese.
  - apply app_eq_nil in Ese as [Es Ee]. assert (k = []) as -> by (unfold n in Hk; rewrite Es in Hk; now destruct k).
    assert (g = []) as -> by (rewrite Ee in Hg; now destruct g). cbn [lookup app]. rewrite key_eqb_refl.
    transitivity (xsum (List.map snd (filter (fun q => (fun _ => true) (fst q)) (compute_leaf agg (s ++ u :: e) df)))).
    { f_equal. f_equal. clear. induction (compute_leaf agg (s ++ u :: e) df) as [|q l IH]; simpl; congruence. }
    etransitivity; [exact (xsum_buckets e df (fun _ => true) Ha)|]. do 2 f_equal. f_equal. unfold slice. apply filter_ext_in. intros r Hr.
    destruct (Hrow r Hr eq_refl) as [y ->]. reflexivity.
  - destruct Hne as [Hne|Hne]; [discriminate|]. rewrite <- Ese in *.
    rewrite (lookup_map (fun g => xsum (List.map snd (filter (fun q => key_eqb (drop_at n (fst q)) g) (compute_leaf agg (s ++ u :: e) df))))).
    + rewrite (xsum_buckets e df (fun q => key_eqb (drop_at n q) (k ++ g))) by assumption. do 2 f_equal. f_equal. unfold slice.
      apply filter_ext_in. intros r Hr. destruct (row_key (s ++ u :: e) r) as [q|] eqn:E.
      * apply row_key_unit in E as [a [y [b [-> [E1 [E2 E3]]]]]]. rewrite drop_at_app by (unfold n; eapply row_key_length; eauto).
        unfold has_key. rewrite row_key_app, E1, E3. reflexivity.
      * destruct (has_key (s ++ e) (k ++ g) r) eqn:E4; auto. apply has_key_iff in E4. destruct (Hrow r Hr E4) as [y H]. congruence.
    + apply sort_uniq_In. apply slice_nonempty in Hne as [r [Hr E]]. destruct (Hrow r Hr E) as [y H].
      unfold compute_leaf. rewrite map_map. cbn [fst]. apply in_map_iff. exists (k ++ y :: g). split.
      * now apply drop_at_app.
      * apply bucket_keys. eauto.
Qed.

Lemma lookup0_bucket e df q : additive agg f df ->
  lookup0 q (compute_leaf agg (s ++ u :: e) df) = agg (slice (s ++ u :: e) q df).
Proof.
  intros Ha. unfold compute_leaf.
  assert (~ In q (group_keys (s ++ u :: e) df) -> agg (slice (s ++ u :: e) q df) = Fin 0) as H0.
  { intros H. rewrite (Ha _ (slice_incl _ _ _)). replace (slice (s ++ u :: e) q df) with (@nil drow); [reflexivity|].
    symmetry. destruct (slice (s ++ u :: e) q df) as [|r l] eqn:E; auto. exfalso. apply H, bucket_keys. exists r.
    apply slice_In. rewrite E. now left. }
  revert H0. generalize (group_keys (s ++ u :: e) df). induction l as [|k l IH]; intros H0; [symmetry; apply H0; simpl; tauto|].
  cbn [map lookup0]. destruct (key_eqb k q) eqn:E; [apply key_eqb_eq in E; now subst|]. apply IH.
  intros H. apply H0. intros [->|H']; [rewrite key_eqb_refl in E; discriminate|contradiction].
Qed.
Lemma Rsum_split (p : drow -> bool) rows :
  Rsum (List.map f rows) = (Rsum (List.map f (filter p rows)) + Rsum (List.map f (filter (fun r => negb (p r)) rows)))%R.
Proof. induction rows as [|r rows IH]; simpl; [ring|]. destruct (p r); simpl; rewrite IH; ring. Qed.
Lemma filter_filter {A} (p q : A -> bool) l : filter p (filter q l) = filter (fun x => q x && p x) l.
Proof. induction l as [|x l IH]; simpl; auto. destruct (q x); simpl; rewrite IH; destruct (p x); reflexivity. Qed.
Lemma loo_value e df k x g : additive agg f df -> List.length k = n -> List.length g = List.length e ->
  xsub (agg (slice (s ++ e) (k ++ g) df)) (agg (slice (s ++ u :: e) (k ++ x :: g) df)) = agg (slice e g (without u x (slice s k df))).
Proof.
  intros Ha Hk Hg. rewrite !Ha; try (apply slice_incl || (eapply incl_tran; [apply slice_incl|eapply incl_tran; [apply filter_incl|apply slice_incl]])).
  cbn [xsub xopp xadd]. f_equal. rewrite slice_slice by assumption. rewrite (slice_slice s (u :: e) k (x :: g)) by assumption.
  set (rows := slice s k df). unfold without, slice.
  rewrite (Rsum_split (fun r => match lab r u with Some y => if string_dec y x then true else false | None => false end) (filter (has_key e g) rows)).
  rewrite !filter_filter.
  assert (forall A B A' B' : table, A = A' -> B = B' -> (Rsum (List.map f A) + Rsum (List.map f B) + - Rsum (List.map f A'))%R = Rsum (List.map f B')) as HH.
  { intros A B A' B' -> ->. ring. }
  apply HH; apply filter_ext; intros r.
  - change (u :: e) with ([u] ++ e). change (x :: g) with ([x] ++ g). rewrite has_key_app by reflexivity.
    rewrite andb_comm. f_equal. unfold has_key. cbn [row_key]. destruct (lab r u) as [y|]; auto. unfold key_eqb.
    destruct (string_dec y x), (list_eq_dec string_dec [y] [x]); congruence.
  - rewrite andb_comm. f_equal. destruct (lab r u) as [y|]; auto. destruct (string_dec y x); reflexivity.
Qed.
Lemma loo_keys_In e slices df q : e <> [] ->
  In q (loo_keys n (s ++ u :: e) slices (compute_leaf agg (s ++ u :: e) df)) <->
  exists k x y g r, q = k ++ x :: g /\ List.length k = n /\ In (k ++ [x]) (group_keys (s ++ [u]) slices) /\
    In r df /\ row_key s r = Some k /\ lab r u = Some y /\ y <> x /\ row_key e r = Some g.
Proof.
  intros He. unfold loo_keys.
  assert (skipn (S n) (s ++ u :: e) = e) as ->.
  { change (s ++ u :: e) with (s ++ [u] ++ e). rewrite app_assoc. apply skipn_app_len. rewrite app_length. simpl. unfold n. lia. }
  assert (firstn (S n) (s ++ u :: e) = s ++ [u]) as ->.
  { change (s ++ u :: e) with (s ++ [u] ++ e). rewrite app_assoc. apply firstn_app_len. rewrite app_length. simpl. unfold n. lia. }
  destruct e as [|c e']; [congruence|]. set (e := c :: e') in *.
  rewrite sort_uniq_In, in_flat_map. split.
  - intros [su [Hsu Hq]]. apply in_map_iff in Hq as [[b v] [<- Hb]]. apply filter_In in Hb as [Hb Hc]. cbn [fst] in *.
    apply andb_true_iff in Hc as [Hc1 Hc2]. apply key_eqb_eq in Hc1. apply negb_true_iff, key_eqb_neq in Hc2.
    unfold compute_leaf in Hb. apply in_map_iff in Hb as [b' [E Hb]]. injection E as -> _. apply bucket_keys in Hb as [r [Hr Hkey]].
    apply row_key_unit in Hkey as [a [y [g [-> [E1 [E2 E3]]]]]]. pose proof (row_key_length _ _ _ E1) as La.
    pose proof Hsu as Hsu'. apply group_keys_In in Hsu as [[Hs _]|[_ [r' [_ Hs]]]]; [destruct s; discriminate|].
    apply row_key_unit in Hs as [a' [x [b' [-> [F1 [F2 F3]]]]]]. cbn in F3. injection F3 as <-.
    pose proof (row_key_length _ _ _ F1) as La'. rewrite !firstn_app_len in Hc1 by (unfold n; assumption). subst a'.
    rewrite !skipn_app_len in Hc2 by (unfold n; assumption). cbn in Hc2.
    exists a, x, y, g, r. repeat split; auto; [|congruence].
    change (a ++ y :: g) with (a ++ [y] ++ g). rewrite (app_assoc a [y]). rewrite skipn_app_len by (rewrite app_length; simpl; unfold n; lia).
    now rewrite <- app_assoc.
  - intros [k [x [y [g [r [-> [Hk [Hsu [Hr [E1 [E2 [Hxy E3]]]]]]]]]]]]. exists (k ++ [x]). split; auto.
    apply in_map_iff. exists (k ++ y :: g, agg (slice (s ++ u :: e) (k ++ y :: g) df)). cbn [fst]. split.
    + change (k ++ y :: g) with (k ++ [y] ++ g). rewrite (app_assoc k [y]). rewrite skipn_app_len by (rewrite app_length; simpl; unfold n in *; lia).
      now rewrite <- app_assoc.
    + apply filter_In. split.
      * unfold compute_leaf. apply in_map_iff. exists (k ++ y :: g). split; auto. apply bucket_keys. exists r. split; auto.
        now apply row_key_unit_mk.
      * cbn [fst]. rewrite !firstn_app_len, !skipn_app_len by assumption. cbn. rewrite key_eqb_refl. cbn [andb].
        apply negb_true_iff, key_eqb_neq. congruence.
Qed.
Lemma loo_keys_nil slices bucket : loo_keys n (s ++ [u]) slices bucket = group_keys (s ++ [u]) slices.
Proof.
  unfold loo_keys. assert (List.length (s ++ [u]) = S n) as H by (rewrite app_length; simpl; unfold n; lia).
  rewrite skipn_all2, firstn_all2 by lia. reflexivity.
Qed.
Lemma loo_keys_sorted e slices bucket : StronglySorted klt (loo_keys n (s ++ u :: e) slices bucket).
Proof. unfold loo_keys. destruct (skipn (S n) (s ++ u :: e)); [apply group_keys_sorted|apply sort_uniq_sorted]. Qed.
Lemma without_In x rows r : In r (without u x rows) <-> In r rows /\ lab r u <> Some x.
Proof.
  unfold without. rewrite filter_In. destruct (lab r u) as [y|]; [|split; intros [H _]; split; auto; discriminate].
  destruct (string_dec y x) as [->|N]; split; intros [H1 H2]; split; auto; congruence.
Qed.
Lemma loo_leaf_slice e df slices k x : additive agg f df -> Forall (fun r => lab r u <> None) df ->
  In (k ++ [x]) (group_keys (s ++ [u]) slices) -> List.length k = n -> (e <> [] \/ s = [] \/ slice s k df <> []) ->
  restrict (S n) (k ++ [x]) (loo_leaf n slices agg (s ++ u :: e) df) = compute_leaf agg e (without u x (slice s k df)).
Proof.
  intros Ha Hu Hx Hk Hne. unfold loo_leaf.
  rewrite (restrict_map (S n) (k ++ [x]) (fun q => xsub (lookup (drop_at n q) (bucket_total n (s ++ u :: e) (compute_leaf agg (s ++ u :: e) df)))
     (lookup0 q (compute_leaf agg (s ++ u :: e) df))) _ (group_keys e (without u x (slice s k df)))).
  - unfold compute_leaf at 3. apply map_ext_in. intros g Hg. f_equal. rewrite <- app_assoc. cbn [app].
    rewrite drop_at_app by assumption. rewrite lookup0_bucket by assumption.
    assert (List.length g = List.length e /\ (s ++ e = [] \/ slice (s ++ e) (k ++ g) df <> [])) as [Hg1 Hg2].
    { apply group_keys_In in Hg as [[-> ->]|[He [r [Hr Hg]]]].
      - split; auto. rewrite !app_nil_r. tauto.
      - split; [eapply row_key_length; eauto|]. right. apply without_In in Hr as [Hr _]. apply slice_In in Hr as [Hr Hs].
        apply slice_nonempty. exists r. split; auto. now rewrite row_key_app, Hs, Hg. }
    rewrite lookup_total by assumption. now apply loo_value.
  - rewrite app_length. simpl. lia.
  - apply loo_keys_sorted.
  - apply group_keys_sorted.
  - intros g. destruct e as [|c e'].
    + rewrite loo_keys_nil. simpl. split.
      * intros [<-|[]]. now rewrite app_nil_r.
      * intros H. left. apply group_keys_In in H as [[E _]|[_ [r [_ E]]]]; [destruct s; discriminate|]. apply row_key_length in E.
        rewrite !app_length in E. simpl in E. unfold n in Hk. destruct g; auto. simpl in E. lia.
    + rewrite loo_keys_In by discriminate. rewrite group_keys_In. split.
      * intros [[E _]|[_ [r [Hr Hg]]]]; [discriminate|]. apply without_In in Hr as [Hr Hl]. apply slice_In in Hr as [Hr Hs].
        rewrite Forall_forall in Hu. destruct (lab r u) as [y|] eqn:Ey; [|destruct (Hu r Hr Ey)].
        exists k, x, y, g, r. rewrite <- app_assoc. repeat split; auto. congruence.
      * intros [k' [x' [y [g' [r [E [Hk' [_ [Hr [E1 [E2 [Hxy E3]]]]]]]]]]]]. right. split; [discriminate|].
        rewrite <- app_assoc in E. apply app_len_inj in E as [<- E]; [|congruence]. injection E as <- <-.
        exists r. split; auto. apply without_In. split; [apply slice_In; auto|congruence].
Qed.
End Loo.
