(** C22: slices are independent. *)
From Coq Require Import Reals List Bool String Arith Lia Sorted.
From Verif Require Import M_Num M_Frame M_Ops M_Slices S_Slices S_Ops L_Frame L_OpsA L_OpsB.
Import ListNotations.
Open Scope nat_scope.
Open Scope list_scope.

Lemma restrict_eq n k fr : restrict n k fr = List.map (fun r => (skipn n (fst r), snd r)) (group n k fr).
Proof. reflexivity. Qed.
Lemma restrict_cons n k r fr :
  restrict n k (r :: fr) = if list_eq_dec string_dec (firstn n (fst r)) k then (skipn n (fst r), snd r) :: restrict n k fr else restrict n k fr.
Proof. rewrite !restrict_eq, group_cons. destruct (list_eq_dec _ _ _); reflexivity. Qed.
Lemma restrict_In n k fr kk v : List.length k = n -> (In (kk, v) (restrict n k fr) <-> In (k ++ kk, v) fr).
Proof.
  intros Hk. rewrite restrict_eq, in_map_iff. split.
  - intros [[q w] [E Hq]]. injection E as <- <-. apply group_In in Hq as [Hq <-]. simpl. now rewrite firstn_skipn.
  - intros H. exists (k ++ kk, v). simpl. rewrite skipn_app_len by assumption. split; auto.
    apply group_In. split; auto. simpl. now apply firstn_app_len.
Qed.
Lemma restrict_keys_In n k fr kk : List.length k = n ->
  (In kk (List.map fst (restrict n k fr)) <-> In (k ++ kk) (List.map fst fr)).
Proof.
  intros Hk. rewrite !in_map_iff. split.
  - intros [[q v] [<- H]]. apply restrict_In in H; auto. exists (k ++ q, v). auto.
  - intros [[q v] [E H]]. simpl in E. subst q. exists (kk, v). split; auto. now apply restrict_In.
Qed.
Lemma lookup_restrict n k g fr : List.length k = n -> lookup g (restrict n k fr) = lookup (k ++ g) fr.
Proof.
  intros Hk. induction fr as [|[q v] fr IH]; auto. rewrite restrict_cons. simpl fst.
  cbn [lookup]. destruct (list_eq_dec string_dec (firstn n q) k) as [E|E].
  - cbn [lookup fst snd]. rewrite IH. rewrite <- (firstn_skipn n q) at 2. rewrite E.
    destruct (key_eqb (skipn n q) g) eqn:E2.
    + apply key_eqb_eq in E2. subst g. now rewrite key_eqb_refl.
    + destruct (key_eqb (k ++ skipn n q) (k ++ g)) eqn:E3; auto. apply key_eqb_eq in E3. apply app_inv_head in E3.
      rewrite E3, key_eqb_refl in E2. discriminate.
  - rewrite IH. destruct (key_eqb q (k ++ g)) eqn:E3; auto. apply key_eqb_eq in E3. subst q.
    rewrite firstn_app_len in E by assumption. congruence.
Qed.
(** a frame given by sorted keys and a function of the key *)
Lemma restrict_map n k (F : key -> num) ks ks' : List.length k = n ->
  StronglySorted klt ks -> StronglySorted klt ks' -> (forall g, In g ks' <-> In (k ++ g) ks) ->
  restrict n k (List.map (fun g => (g, F g)) ks) = List.map (fun g => (g, F (k ++ g))) ks'.
Proof.
  intros Hk Hs Hs' HI.
  assert (List.map (skipn n) (filter (fun g => key_eqb (firstn n g) k) ks) = ks') as <-.
  { apply ksorted_ext; auto.
    - clear HI Hs'. induction Hs as [|y l Hs IH Hy]; [constructor|]. simpl. destruct (key_eqb (firstn n y) k) eqn:E; auto.
      simpl. constructor; auto. apply Forall_forall. intros z Hz. apply in_map_iff in Hz as [q [<- Hq]].
      apply filter_In in Hq as [Hq Eq]. apply key_eqb_eq in E, Eq. rewrite Forall_forall in Hy. specialize (Hy q Hq).
      unfold klt in *. rewrite <- (firstn_skipn n y), <- (firstn_skipn n q), E, Eq, key_cmp_app in Hy. exact Hy.
    - intros g. rewrite HI, in_map_iff. split.
      + intros [q [<- Hq]]. apply filter_In in Hq as [Hq Eq]. apply key_eqb_eq in Eq. rewrite <- Eq, firstn_skipn. exact Hq.
      + intros H. exists (k ++ g). rewrite skipn_app_len by assumption. split; auto. apply filter_In. split; auto.
        apply key_eqb_eq. now apply firstn_app_len. }
  clear. rewrite restrict_eq. unfold group. induction ks as [|q ks IH]; auto. cbn [map filter fst].
  unfold key_eqb. destruct (list_eq_dec string_dec (firstn n q) k) as [E|E]; [|exact IH]. cbn [map fst snd].
  unfold key_eqb in IH. rewrite IH. f_equal. f_equal. rewrite <- E, firstn_skipn. reflexivity.
Qed.

(** leaves *)
Lemma row_key_app s e r : row_key (s ++ e) r =
  match row_key s r, row_key e r with Some a, Some b => Some (a ++ b) | _, _ => None end.
Proof.
  induction s as [|c s IH]; simpl; [now destruct (row_key e r)|]. rewrite IH.
  destruct (lab r c), (row_key s r), (row_key e r); reflexivity.
Qed.
Lemma row_key_length s r k : row_key s r = Some k -> List.length k = List.length s.
Proof.
  revert k; induction s as [|c s IH]; simpl; intros k H; [injection H as <-; reflexivity|].
  destruct (lab r c), (row_key s r); try discriminate. injection H as <-. simpl. f_equal. now apply IH.
Qed.
Lemma has_key_iff s k r : has_key s k r = true <-> row_key s r = Some k.
Proof. unfold has_key. destruct (row_key s r); [rewrite key_eqb_eq|]; split; congruence. Qed.
Lemma has_key_app s e k g r : List.length k = List.length s -> has_key (s ++ e) (k ++ g) r = has_key s k r && has_key e g r.
Proof.
  intros Hk. unfold has_key. rewrite row_key_app. destruct (row_key s r) as [a|] eqn:Ea; auto.
  destruct (row_key e r) as [b|] eqn:Eb; [|now rewrite andb_false_r].
  apply row_key_length in Ea. destruct (key_eqb (a ++ b) (k ++ g)) eqn:E.
  - apply key_eqb_eq in E. apply app_len_inj in E as [-> ->]; [|congruence]. now rewrite !key_eqb_refl.
  - destruct (key_eqb a k) eqn:E1, (key_eqb b g) eqn:E2; auto. apply key_eqb_eq in E1, E2. subst. now rewrite key_eqb_refl in E.
Qed.
Lemma slice_slice s e k g df : List.length k = List.length s -> slice (s ++ e) (k ++ g) df = slice e g (slice s k df).
Proof.
  intros Hk. unfold slice. induction df as [|r df IH]; auto. cbn [filter]. rewrite has_key_app by assumption.
  destruct (has_key s k r) eqn:E; cbn [andb filter]; auto. destruct (has_key e g r); now rewrite IH.
Qed.
Lemma keys_of_In cols df k : In k (keys_of cols df) <-> exists r, In r df /\ row_key cols r = Some k.
Proof.
  induction df as [|r df IH]; simpl; [split; [tauto|intros [r [[] _]]]|].
  destruct (row_key cols r) eqn:E; simpl; rewrite IH; split.
  - intros [<-|[q [H1 H2]]]; eauto.
  - intros [q [[<-|H1] H2]]; [left; congruence|eauto].
  - intros [q [H1 H2]]; eauto.
  - intros [q [[<-|H1] H2]]; [congruence|eauto].
Qed.
Lemma group_keys_In cols df k : In k (group_keys cols df) <->
  (cols = [] /\ k = []) \/ (cols <> [] /\ exists r, In r df /\ row_key cols r = Some k).
Proof.
  unfold group_keys. destruct cols as [|c cols].
  - simpl. split; [intros [<-|[]]; auto|]. intros [[_ ->]|[H _]]; [auto|congruence].
  - rewrite sort_uniq_In, keys_of_In. split; [intros H; right; split; [discriminate|exact H]|].
    intros [[H _]|[_ H]]; [discriminate|exact H].
Qed.
Lemma group_keys_sorted cols df : StronglySorted klt (group_keys cols df).
Proof. destruct cols; simpl; [repeat constructor|apply sort_uniq_sorted]. Qed.
Lemma slice_In s k df r : In r (slice s k df) <-> In r df /\ row_key s r = Some k.
Proof. unfold slice. rewrite filter_In, has_key_iff. tauto. Qed.
Lemma slice_nonempty s k df : slice s k df <> [] <-> exists r, In r df /\ row_key s r = Some k.
Proof.
  split.
  - intros H. destruct (slice s k df) as [|r l] eqn:E; [congruence|]. exists r. apply slice_In. rewrite E. now left.
  - intros [r H] E. apply slice_In in H. rewrite E in H. destruct H.
Qed.
Lemma leaf_slice agg s e k df : slice s k df <> [] ->
  restrict (List.length s) k (compute_leaf agg (s ++ e) df) = compute_leaf agg e (slice s k df).
Proof.
  intros Hne. pose proof Hne as Hr. apply slice_nonempty in Hr as [r0 [Hr0 Hk]].
  pose proof (row_key_length _ _ _ Hk) as HL. unfold compute_leaf.
  rewrite (restrict_map (List.length s) k (fun g => agg (slice (s ++ e) g df)) (group_keys (s ++ e) df) (group_keys e (slice s k df)));
    auto using group_keys_sorted.
  - apply map_ext. intros g. now rewrite slice_slice.
  - intros g. rewrite !group_keys_In. split.
    + intros [[-> ->]|[He [r [Hr Hg]]]].
      * rewrite !app_nil_r. destruct s; [left; split; auto; destruct k; [reflexivity|discriminate]|].
        right. split; [discriminate|]. exists r0. auto.
      * right. split; [destruct s; [exact He|discriminate]|]. apply slice_In in Hr as [Hr Hs]. exists r. split; auto.
        rewrite row_key_app, Hs, Hg. reflexivity.
    + intros [[E1 E2]|[He [r [Hr Hg]]]].
      * apply app_eq_nil in E1 as [-> ->]. apply app_eq_nil in E2 as [-> ->]. left; auto.
      * rewrite row_key_app in Hg. destruct (row_key s r) as [a|] eqn:Ea; [|discriminate].
        destruct (row_key e r) as [b|] eqn:Eb; [|discriminate]. injection Hg as Hg.
        pose proof (row_key_length _ _ _ Ea) as La. apply app_len_inj in Hg as [-> ->]; [|congruence].
        destruct e as [|c e].
        -- simpl in Eb. injection Eb as <-. left; auto.
        -- right. split; [discriminate|]. exists r. split; auto. apply slice_In. auto.
Qed.
(** composites *)
Lemma align_slice f n k a b : List.length k = n ->
  restrict n k (align f a b) = align f (restrict n k a) (restrict n k b).
Proof.
  intros Hk. unfold align.
  rewrite (restrict_map n k (fun g => f (lookup g a) (lookup g b)) _
    (sort_uniq (List.map fst (restrict n k a) ++ List.map fst (restrict n k b)))); auto using sort_uniq_sorted.
  - apply map_ext. intros g. now rewrite !lookup_restrict.
  - intros g. rewrite !sort_uniq_In, !in_app_iff, !restrict_keys_In by assumption. tauto.
Qed.
Lemma filter_filter_comm {A} (p q : A -> bool) l : filter p (filter q l) = filter q (filter p l).
Proof. induction l as [|x l IH]; simpl; auto. destruct (p x) eqn:E1, (q x) eqn:E2; simpl; rewrite ?E1, ?E2, IH; reflexivity. Qed.

Lemma compute_on_slice t : forall s e k df r, slicewise_tree t ->
  List.length k = List.length s -> populated t e (slice s k df) -> compute_on t e (slice s k df) = Some r ->
  exists R, compute_on t (s ++ e) df = Some R /\ restrict (List.length s) k R = r.
Proof.
  induction t as [agg|keep t IH|f t IH|f a IHa b IHb|ex ix op t IH]; intros s e k df r Hsl Hk Hpop Hr; simpl in *.
  - injection Hr as <-. eexists. split; [reflexivity|]. now apply leaf_slice.
  - unfold slice in Hpop, Hr. rewrite filter_filter_comm in Hpop, Hr. eapply IH; eauto.
  - destruct (compute_on t e (slice s k df)) as [r'|] eqn:E; [|discriminate]. injection Hr as <-.
    destruct (IH s e k df r' Hsl Hk Hpop E) as [R [-> HR]]. eexists. split; [reflexivity|].
    rewrite <- HR. rewrite !restrict_eq, (group_map _ _ (fun q => f (snd q))), !map_map. reflexivity.
  - destruct Hsl as [Ha Hb], Hpop as [Pa Pb].
    destruct (list_eq_dec string_dec (levels a) (levels b)); [|discriminate].
    destruct (compute_on a e (slice s k df)) as [ra|] eqn:Ea; [|discriminate].
    destruct (compute_on b e (slice s k df)) as [rb|] eqn:Eb; [|discriminate]. injection Hr as <-.
    destruct (IHa s e k df ra Ha Hk Pa Ea) as [Ra [-> HRa]]. destruct (IHb s e k df rb Hb Hk Pb Eb) as [Rb [-> HRb]].
    eexists. split; [reflexivity|]. rewrite align_slice by assumption. now rewrite HRa, HRb.
  - destruct Hsl as [Hop Ht], Hpop as [Pt Pne].
    destruct (compute_on t (e ++ ex) (slice s k df)) as [c|] eqn:E; [|discriminate].
    destruct (IH s (e ++ ex) k df c Ht Hk Pt E) as [C [EC HC]]. rewrite <- app_assoc. rewrite EC.
    rewrite app_length. apply Hop; auto.
    + rewrite HC. intros ->. now apply Pne.
    + now rewrite HC.
Qed.

(** the operations are slicewise *)
Lemma group_restrict n m k g c : List.length k = n ->
  group m g (restrict n k c) = List.map (fun r => (skipn n (fst r), snd r)) (group (n + m) (k ++ g) c).
Proof.
  intros Hk. induction c as [|[q v] c IH]; auto. rewrite restrict_cons, group_cons. cbn [fst snd].
  destruct (list_eq_dec string_dec (firstn n q) k) as [E|E].
  - rewrite group_cons. cbn [fst]. destruct (list_eq_dec string_dec (firstn m (skipn n q)) g) as [E2|E2];
    destruct (list_eq_dec string_dec (firstn (n + m) q) (k ++ g)) as [E3|E3]; cbn [map fst snd]; rewrite ?IH; auto.
    + destruct E3. rewrite <- E, <- E2. clear. revert q; induction n; intros q; simpl; auto. destruct q; simpl; [now destruct m|now rewrite IHn].
    + destruct E2. assert (firstn m (skipn n q) = skipn n (firstn (n + m) q)) as ->.
      { clear. revert q; induction n; intros q; simpl; auto. destruct q; simpl; auto. now destruct m. }
      rewrite E3. now apply skipn_app_len.
  - destruct (list_eq_dec string_dec (firstn (n + m) q) (k ++ g)) as [E3|E3]; auto.
    destruct E. apply (f_equal (firstn n)) in E3. rewrite firstn_firstn, Nat.min_l in E3 by lia.
    rewrite E3. now apply firstn_app_len.
Qed.
Lemma vals_restrict n m k g c : List.length k = n -> vals m g (restrict n k c) = vals (n + m) (k ++ g) c.
Proof. intros Hk. unfold vals. rewrite group_restrict by assumption. rewrite map_map. reflexivity. Qed.
Lemma firstn_plus {A} n m (q : list A) : firstn (n + m) q = firstn n q ++ firstn m (skipn n q).
Proof. revert q; induction n; intros q; simpl; auto. destruct q; simpl; [now destruct m|now rewrite IHn]. Qed.
Lemma distribution_eq n c : distribution n c = List.map (fun r => (fst r, xdiv (snd r) (xsum (vals n (firstn n (fst r)) c)))) c.
Proof. unfold distribution. apply map_ext_in. intros r Hr. now rewrite level_total. Qed.
Lemma restrict_distribution n m k c : List.length k = n ->
  restrict n k (distribution (n + m) c) = distribution m (restrict n k c).
Proof.
  intros Hk. rewrite !distribution_eq, !restrict_eq.
  rewrite (group_map n k (fun r => xdiv (snd r) (xsum (vals (n + m) (firstn (n + m) (fst r)) c)))), !map_map.
  apply map_ext_in. intros r Hr. apply group_In in Hr as [_ Hr]. cbn [fst snd]. do 3 f_equal.
  change (List.map (fun r0 => (skipn n (fst r0), snd r0)) (group n k c)) with (restrict n k c).
  rewrite vals_restrict by assumption. now rewrite firstn_plus, Hr.
Qed.
Lemma restrict_groupby agg n m k d : List.length k = n -> restrict n k d <> [] ->
  restrict n k (groupby_level (n + m) agg d) = groupby_level m agg (restrict n k d).
Proof.
  intros Hk Hne.
  change (groupby_level (n + m) agg d) with (List.map (fun g => (g, agg (vals (n + m) g d))) (level_keys (n + m) d)).
  rewrite (restrict_map n k (fun g => agg (vals (n + m) g d)) (level_keys (n + m) d) (level_keys m (restrict n k d)));
    auto using level_keys_sorted.
  - unfold groupby_level. apply map_ext. intros g. now rewrite <- vals_restrict.
  - intros g. rewrite !level_keys_In. split.
    + intros [[-> ->]|[Hm [[q v] [Hr <-]]]].
      * rewrite Nat.add_0_r, app_nil_r. destruct n; [left; split; auto; destruct k; [auto|discriminate]|].
        right. split; [discriminate|]. destruct (restrict (S n) k d) as [|[q v] l] eqn:E; [congruence|].
        assert (In (q, v) (restrict (S n) k d)) as Hi by (rewrite E; now left). apply restrict_In in Hi; auto.
        exists (k ++ q, v). split; auto. cbn [fst]. now apply firstn_app_len.
      * right. split; [lia|]. apply restrict_In in Hr; auto. exists (k ++ q, v). split; auto. cbn [fst].
        rewrite firstn_plus, firstn_app_len, skipn_app_len by assumption. reflexivity.
    + intros [[E1 E2]|[Hnm [[q v] [Hr E]]]].
      * apply app_eq_nil in E2 as [-> ->]. left. split; auto. lia.
      * cbn [fst] in E. rewrite firstn_plus in E.
        assert (firstn n q = k /\ firstn m (skipn n q) = g) as [E1 E2].
        { assert (List.length (firstn n q) = n \/ skipn n q = []) as [L|L].
          { rewrite firstn_length. destruct (le_lt_dec n (List.length q)); [left; lia|right; apply skipn_all2; lia]. }
          - apply app_len_inj in E; [exact E|congruence].
          - rewrite L in E. destruct m; simpl in E; rewrite app_nil_r in E; rewrite L; simpl.
            + assert (List.length (k ++ g) <= n)%nat as L2 by (rewrite <- E, firstn_length; lia).
              rewrite app_length in L2. destruct g; [|simpl in L2; lia]. rewrite app_nil_r in E. auto.
            + assert (List.length (k ++ g) <= n)%nat as L2 by (rewrite <- E, firstn_length; lia).
              rewrite app_length in L2. destruct g; [|simpl in L2; lia]. rewrite app_nil_r in E. auto. }
        destruct m as [|m]; [left; split; auto; now simpl in E2; auto|].
        right. split; [discriminate|]. exists (skipn n q, v). split; [|exact E2].
        apply restrict_In; auto. rewrite <- E1, firstn_skipn. exact Hr.
Qed.
Lemma restrict_nil_dist n m k c : List.length k = n -> restrict n k c <> [] -> restrict n k (distribution (n + m) c) <> [].
Proof.
  intros Hk H E. rewrite restrict_distribution in E by assumption. apply H.
  apply (f_equal (List.map fst)) in E. rewrite distribution_index in E. now apply map_eq_nil in E.
Qed.

Lemma slicewise_distribution : slicewise (fun n c => Some (distribution n c)).
Proof. intros n m k c r Hk _ E. injection E as <-. eexists. split; [reflexivity|]. now apply restrict_distribution. Qed.
Lemma slicewise_hhi : slicewise (fun n c => Some (hhi n c)).
Proof.
  intros n m k c r Hk Hne E. injection E as <-. eexists. split; [reflexivity|]. unfold hhi.
  rewrite restrict_groupby by auto using restrict_nil_dist. now rewrite restrict_distribution.
Qed.
Lemma slicewise_entropy : slicewise (fun n c => Some (entropy n c)).
Proof.
  intros n m k c r Hk Hne E. injection E as <-. eexists. split; [reflexivity|]. unfold entropy.
  rewrite restrict_groupby by auto using restrict_nil_dist. now rewrite restrict_distribution.
Qed.
Lemma slicewise_nxx share : slicewise (fun n c => Some (nxx share n c)).
Proof.
  intros n m k c r Hk Hne E. injection E as <-. eexists. split; [reflexivity|]. unfold nxx.
  rewrite restrict_groupby by auto using restrict_nil_dist. now rewrite restrict_distribution.
Qed.

(** comparisons *)
Lemma cond_of_plus n m nc (q : key) : cond_of (n + m) nc q = cond_of m nc (skipn n q).
Proof. unfold cond_of. now rewrite skipn_skipn. Qed.
Lemma drop_cond_plus n m nc (k q : key) : firstn n q = k -> drop_cond (n + m) nc q = k ++ drop_cond m nc (skipn n q).
Proof.
  intros <-. unfold drop_cond. rewrite firstn_plus, <- app_assoc. do 2 f_equal. rewrite skipn_skipn. f_equal. lia.
Qed.
Lemma restrict_filter n k p (p' : key * num -> bool) fr :
  (forall r, firstn n (fst r) = k -> p r = p' (skipn n (fst r), snd r)) ->
  restrict n k (filter p fr) = filter p' (restrict n k fr).
Proof.
  intros H. rewrite !restrict_eq, group_filter_comm. induction fr as [|r fr IH]; auto. rewrite group_cons.
  destruct (list_eq_dec string_dec (firstn n (fst r)) k) as [E|E]; auto. cbn [filter map]. rewrite (H r E).
  destruct (p' (skipn n (fst r), snd r)); cbn [map]; now rewrite IH.
Qed.
Lemma firstn_drop_cond n m nc (q : key) : firstn n (drop_cond (n + m) nc q) = firstn n q.
Proof.
  unfold drop_cond. rewrite firstn_app, firstn_firstn, Nat.min_l by lia.
  rewrite firstn_length. destruct (le_lt_dec (n + m) (List.length q)) as [L|L].
  - rewrite Nat.min_l by lia. replace (n - (n + m))%nat with 0%nat by lia. simpl. now rewrite app_nil_r.
  - rewrite (skipn_all2 q) by lia. rewrite firstn_nil, app_nil_r. reflexivity.
Qed.
Lemma restrict_drop n m nc k (fc : rframe) : List.length k = n ->
  List.map (fun r => (drop_cond m nc (fst r), snd r)) (restrict n k fc) =
  restrict n k (List.map (fun r => (drop_cond (n + m) nc (fst r), snd r)) fc).
Proof.
  intros Hk. induction fc as [|r0 fc IH]; auto. cbn [map]. rewrite !restrict_cons. cbn [fst snd]. rewrite firstn_drop_cond.
  destruct (list_eq_dec string_dec (firstn n (fst r0)) k) as [Ek|Ek]; auto. cbn [map fst snd]. rewrite IH. do 2 f_equal.
  rewrite (drop_cond_plus n m nc k) by assumption. now rewrite skipn_app_len.
Qed.
Lemma slicewise_compare f nc base incl : slicewise (fun n c => compare_with_base f n nc base incl c).
Proof.
  intros n m k c r Hk _ H. unfold compare_with_base in *.
  destruct (xs m nc base (restrict n k c)) as [b'|] eqn:E; [|discriminate].
  destruct (xs (n + m) nc base c) as [b|] eqn:Eb.
  2:{ exfalso. destruct b' as [|x b']; [unfold xs in E; destruct (filter _ _); [discriminate|discriminate]|].
      unfold xs in E. destruct (filter (fun r0 => key_eqb (cond_of m nc (fst r0)) base) (restrict n k c)) as [|[q v] l] eqn:F; [discriminate|].
      assert (In (q, v) (filter (fun r0 => key_eqb (cond_of m nc (fst r0)) base) (restrict n k c))) as Hi by (rewrite F; now left).
      apply filter_In in Hi as [Hi Hc]. apply restrict_In in Hi; auto.
      apply key_eqb_eq in Hc; cbn [fst] in Hc. destruct (proj1 (xs_None (n + m) nc base c) Eb (k ++ q) v Hi).
      now rewrite cond_of_plus, skipn_app_len. }
  assert (forall g, lookup g b' = lookup (k ++ g) b) as HL.
  { intros g. rewrite <- (lookup_restrict n k g b Hk). f_equal. apply xs_Some in E as ->. apply xs_Some in Eb as ->.
    rewrite <- (restrict_filter n k (fun r0 => key_eqb (cond_of (n + m) nc (fst r0)) base)).
    - apply restrict_drop. exact Hk.
    - intros r0 _. cbn [fst]. now rewrite cond_of_plus. }
  set (whole := List.map (fun r0 => (fst r0, f (snd r0) (lookup (drop_cond (n + m) nc (fst r0)) b))) c).
  set (part := List.map (fun r0 => (fst r0, f (snd r0) (lookup (drop_cond m nc (fst r0)) b'))) (restrict n k c)) in *.
  assert (restrict n k whole = part) as HW.
  { unfold whole, part. rewrite !restrict_eq, (group_map n k (fun r0 => f (snd r0) (lookup (drop_cond (n + m) nc (fst r0)) b))), !map_map.
    apply map_ext_in. intros r0 Hr0. apply group_In in Hr0 as [_ Hr0]. cbn [fst snd]. do 2 f_equal. rewrite HL.
    f_equal. now apply drop_cond_plus. }
  eexists. split; [reflexivity|]. destruct incl; injection H as <-; auto.
  rewrite (restrict_filter n k _ (fun r0 => negb (key_eqb (cond_of m nc (fst r0)) base))); [now rewrite HW|].
  intros r0 _. cbn [fst]. now rewrite cond_of_plus.
Qed.

(** cumulative distribution with a custom order, or a sort that sorts every slice on its own *)
Lemma restrict_app n k a b : restrict n k (a ++ b) = restrict n k a ++ restrict n k b.
Proof. rewrite !restrict_eq, group_app, map_app. reflexivity. Qed.
Lemma restrict_reindex n m k order fr : List.length k = n ->
  restrict n k (reindex_order (n + m) order fr) = reindex_order m order (restrict n k fr).
Proof.
  intros Hk. unfold reindex_order.
  rewrite (restrict_filter n k _ (fun r => negb (is_nan (snd r)))) by reflexivity. f_equal.
  induction order as [|o order IH]; auto. cbn [flat_map]. rewrite restrict_app, IH. f_equal.
  apply (restrict_filter n k _ (fun r => key_eqb (firstn 1 (skipn m (fst r))) [o])). intros r _. cbn [fst].
  now rewrite skipn_skipn.
Qed.
Lemma restrict_cumsum n m k l : List.length k = n ->
  restrict n k (group_cumsum (n + m) l) = group_cumsum m (restrict n k l).
Proof.
  intros Hk. unfold group_cumsum. change (@nil (key * num)) with (restrict n k []) at 2. generalize (@nil (key * num)) as seen.
  induction l as [|r l IH]; intros seen; auto. cbn [cumsum_from]. rewrite !restrict_cons. cbn [fst snd].
  destruct (list_eq_dec string_dec (firstn n (fst r)) k) as [E|E].
  - cbn [cumsum_from fst snd]. rewrite IH. rewrite restrict_app. f_equal.
    + f_equal. destruct (is_nan (snd r)); auto. f_equal. f_equal.
      change (vals (n + m) (firstn (n + m) (fst r)) seen = vals m (firstn m (skipn n (fst r))) (restrict n k seen)).
      rewrite vals_restrict by assumption. now rewrite firstn_plus, E.
    + f_equal. f_equal. rewrite restrict_cons. destruct (list_eq_dec string_dec (firstn n (fst r)) k); [reflexivity|contradiction].
  - rewrite IH, restrict_app. rewrite restrict_cons. destruct (list_eq_dec string_dec (firstn n (fst r)) k); [contradiction|].
    change (restrict n k []) with (@nil (key * num)). now rewrite app_nil_r.
Qed.
Lemma sort_by_level_eq n l : sort_by_level n l = flat_map (fun g => group n g l) (level_keys n l).
Proof. reflexivity. Qed.
Lemma restrict_sort_by_level n m k l : List.length k = n -> restrict n k l <> [] ->
  restrict n k (sort_by_level (n + m) l) = sort_by_level m (restrict n k l).
Proof.
  intros Hk Hne. rewrite !sort_by_level_eq.
  assert (forall ks, restrict n k (flat_map (fun g => group (n + m) g l) ks) =
    flat_map (fun g => group m g (restrict n k l)) (List.map (skipn n) (filter (fun g => key_eqb (firstn n g) k) ks)) \/
    exists g, In g ks /\ group (n + m) g l = [] ) as HA.
  { induction ks as [|g ks IH]; [left; reflexivity|]. destruct IH as [IH|[g' [Hg Hn]]]; [|right; exists g'; split; auto; now right].
    destruct (group (n + m) g l) as [|r0 l0] eqn:Eg; [right; exists g; split; auto; now left|]. left.
    cbn [flat_map filter]. rewrite restrict_app, IH. clear IH.
    assert (In r0 (group (n + m) g l)) as H0 by (rewrite Eg; now left). apply group_In in H0 as [_ H0].
    destruct (key_eqb (firstn n g) k) eqn:E.
    - apply key_eqb_eq in E. cbn [map flat_map]. f_equal. rewrite group_restrict by assumption.
      rewrite <- E at 2. rewrite firstn_skipn. rewrite restrict_eq. f_equal. unfold group at 1. apply filter_all.
      intros x Hx. apply group_In in Hx as [_ Hx]. destruct (list_eq_dec string_dec (firstn n (fst x)) k) as [|N]; auto.
      destruct N. rewrite <- E, <- Hx, firstn_firstn, Nat.min_l by lia. reflexivity.
    - apply key_eqb_neq in E. cbn [app]. rewrite restrict_eq. unfold group at 1. rewrite filter_none; [reflexivity|].
      intros x Hx. apply group_In in Hx as [_ Hx]. destruct (list_eq_dec string_dec (firstn n (fst x)) k) as [N|]; auto.
      destruct E. rewrite <- N, <- Hx, firstn_firstn, Nat.min_l by lia. reflexivity. }
  destruct (HA (level_keys (n + m) l)) as [->|[g [Hg Hn]]].
  - f_equal. apply ksorted_ext.
    + pose proof (level_keys_sorted (n + m) l) as Hs. induction Hs as [|y ks Hs IH Hy]; [constructor|].
      simpl. destruct (key_eqb (firstn n y) k) eqn:E; auto. simpl. constructor; auto. apply Forall_forall.
      intros z Hz. apply in_map_iff in Hz as [q [<- Hq]]. apply filter_In in Hq as [Hq Eq]. apply key_eqb_eq in E, Eq.
      rewrite Forall_forall in Hy. specialize (Hy q Hq). unfold klt in *.
      rewrite <- (firstn_skipn n y), <- (firstn_skipn n q), E, Eq, key_cmp_app in Hy. exact Hy.
    + apply level_keys_sorted.
    + intros g. rewrite in_map_iff. rewrite level_keys_In. split.
      * intros [q [<- Hq]]. apply filter_In in Hq as [Hq Eq]. apply key_eqb_eq in Eq. apply level_keys_In in Hq as [[E1 ->]|[E1 [r0 [Hr0 <-]]]].
        -- left. split; [lia|]. now rewrite skipn_nil.
        -- rewrite firstn_firstn, Nat.min_l in Eq by lia. destruct m as [|m].
           ++ left. split; auto. rewrite Nat.add_0_r. apply skipn_all2. rewrite firstn_length. lia.
           ++ right. split; [discriminate|]. exists (skipn n (fst r0), snd r0). split.
              ** apply restrict_In; auto. rewrite <- Eq, firstn_skipn. now destruct r0.
              ** cbn [fst]. rewrite firstn_plus. rewrite Eq. now rewrite skipn_app_len.
      * intros [[-> ->]|[Hm [[q v] [Hq <-]]]].
        -- destruct (restrict n k l) as [|[q v] l'] eqn:E; [congruence|].
           assert (In (q, v) (restrict n k l)) as Hi by (rewrite E; now left). apply restrict_In in Hi; auto.
           exists k. rewrite skipn_all2 by lia. split; auto. apply filter_In.
           assert (firstn n k = k) as -> by (apply firstn_all2; lia). split; [|apply key_eqb_refl].
           rewrite Nat.add_0_r. pose proof (level_keys_here n l _ Hi) as HH. cbn [fst] in HH. now rewrite firstn_app_len in HH.
        -- apply restrict_In in Hq; auto. exists (k ++ firstn m q). rewrite skipn_app_len by assumption. split; auto.
           apply filter_In. rewrite firstn_app_len by assumption. split; [|apply key_eqb_refl].
           pose proof (level_keys_here (n + m) l _ Hq) as HH. cbn [fst] in HH.
           now rewrite firstn_plus, firstn_app_len, skipn_app_len in HH.
  - exfalso. apply level_keys_In in Hg as [[E1 ->]|[E1 [r0 [Hr0 <-]]]].
    + assert (n = 0 /\ m = 0)%nat as [-> ->] by lia. destruct k; [|discriminate]. apply Hne.
      rewrite restrict_eq. simpl in Hn. now rewrite Hn.
    + assert (In r0 (group (n + m) (firstn (n + m) (fst r0)) l)) as Hi by (apply group_In; auto). rewrite Hn in Hi. destruct Hi.
Qed.
Lemma restrict_sort_by_level' n m k l : List.length k = n ->
  restrict n k (sort_by_level (n + m) l) = sort_by_level m (restrict n k l).
Proof.
  intros Hk. destruct (restrict n k l) as [|r0 l0] eqn:E.
  - transitivity (@nil (key * num)).
    + destruct (restrict n k (sort_by_level (n + m) l)) as [|[q v] l'] eqn:E2; auto. exfalso.
      assert (In (q, v) (restrict n k (sort_by_level (n + m) l))) as Hi by (rewrite E2; now left).
      apply restrict_In in Hi; auto. rewrite sort_by_level_eq in Hi. apply in_flat_map in Hi as [g [_ Hi]].
      apply group_In in Hi as [Hi _]. apply (restrict_In n k l q v Hk) in Hi. now rewrite E in Hi.
    + destruct m; reflexivity.
  - rewrite <- E. apply restrict_sort_by_level; auto. congruence.
Qed.
Lemma slicewise_cumdist_order order : slicewise (fun n c => Some (cumulative_distribution n (ByOrder order) c)).
Proof.
  intros n m k c r Hk _ E. injection E as <-. eexists. split; [reflexivity|]. unfold cumulative_distribution.
  rewrite restrict_sort_by_level', restrict_cumsum, restrict_reindex, restrict_distribution by assumption. reflexivity.
Qed.
Lemma insert_row_comm leb n m k r l : (forall a b c, leb a b = true -> leb b c = true -> leb a c = true) ->
  List.length k = n -> StronglySorted (fun a b => leb (skipn (n + m) (fst a), snd a) (skipn (n + m) (fst b), snd b) = true) l ->
  restrict n k (insert_row leb (n + m) r l) =
  if list_eq_dec string_dec (firstn n (fst r)) k then insert_row leb m (skipn n (fst r), snd r) (restrict n k l) else restrict n k l.
Proof.
  intros Ht Hk Hs. induction Hs as [|q l Hs IH Hq].
  - cbn [insert_row]. rewrite restrict_cons. reflexivity.
  - cbn [insert_row]. destruct (leb (skipn (n + m) (fst r), snd r) (skipn (n + m) (fst q), snd q)) eqn:E.
    + rewrite restrict_cons. destruct (list_eq_dec string_dec (firstn n (fst r)) k) as [Er|Er]; auto.
      assert (forall z, In z (restrict n k (q :: l)) -> leb (skipn m (skipn n (fst r)), snd r) (skipn m (fst z), snd z) = true) as HA.
      { intros [z v] Hz. apply restrict_In in Hz; auto. cbn [fst snd]. rewrite skipn_skipn. destruct Hz as [Hz|Hz].
        - subst q. cbn [fst snd] in E. rewrite <- (skipn_skipn m n (k ++ z)), skipn_app_len in E by assumption. exact E.
        - rewrite Forall_forall in Hq. specialize (Hq _ Hz). cbn [fst snd] in Hq.
          pose proof (Ht _ _ _ E Hq) as H. rewrite <- (skipn_skipn m n (k ++ z)), skipn_app_len in H by assumption. exact H. }
      destruct (restrict n k (q :: l)) as [|z l'] eqn:El; [reflexivity|]. cbn [insert_row fst snd].
      rewrite (HA z) by now left. reflexivity.
    + rewrite !restrict_cons. rewrite IH. destruct (list_eq_dec string_dec (firstn n (fst q)) k) as [Eq|Eq]; auto.
      destruct (list_eq_dec string_dec (firstn n (fst r)) k) as [Er|Er]; auto.
      cbn [insert_row fst snd]. rewrite !skipn_skipn, E. reflexivity.
Qed.
Lemma insert_row_In leb n r l x : In x (insert_row leb n r l) -> x = r \/ In x l.
Proof.
  induction l as [|q l IH]; simpl; [intros [<-|[]]; auto|]. destruct (leb _ _); simpl; [intros [<-|H]; auto|].
  intros [<-|H]; auto. destruct (IH H); auto.
Qed.
Lemma sort_rows_sorted leb n l : (forall a b, leb a b = true \/ leb b a = true) ->
  (forall a b c, leb a b = true -> leb b c = true -> leb a c = true) ->
  StronglySorted (fun a b => leb (skipn n (fst a), snd a) (skipn n (fst b), snd b) = true) (sort_rows leb n l).
Proof.
  intros Htot Ht. unfold sort_rows. induction l as [|r l IH]; [constructor|]. cbn [fold_right].
  revert IH. generalize (fold_right (insert_row leb n) [] l) as s. intros s Hs.
  induction Hs as [|q s Hs IHs Hq]; [repeat constructor|]. cbn [insert_row].
  destruct (leb (skipn n (fst r), snd r) (skipn n (fst q), snd q)) eqn:E.
  - constructor; [now constructor|]. constructor; auto. rewrite Forall_forall in *. intros z Hz. eapply Ht; eauto.
  - constructor; auto. apply Forall_forall. intros z Hz. apply insert_row_In in Hz as [->|Hz].
    + destruct (Htot (skipn n (fst r), snd r) (skipn n (fst q), snd q)); congruence.
    + rewrite Forall_forall in Hq. auto.
Qed.
Lemma restrict_sort_rows leb n m k l : (forall a b, leb a b = true \/ leb b a = true) ->
  (forall a b c, leb a b = true -> leb b c = true -> leb a c = true) -> List.length k = n ->
  restrict n k (sort_rows leb (n + m) l) = sort_rows leb m (restrict n k l).
Proof.
  intros Htot Ht Hk. induction l as [|r l IH]; auto. change (sort_rows leb (n + m) (r :: l)) with (insert_row leb (n + m) r (sort_rows leb (n + m) l)).
  rewrite insert_row_comm by auto using sort_rows_sorted. rewrite IH, restrict_cons.
  destruct (list_eq_dec string_dec (firstn n (fst r)) k); reflexivity.
Qed.
Lemma slicewise_cumdist_sort leb : (forall a b, leb a b = true \/ leb b a = true) ->
  (forall a b c, leb a b = true -> leb b c = true -> leb a c = true) ->
  slicewise (fun n c => Some (cumulative_distribution n (BySort (sort_rows leb n)) c)).
Proof.
  intros H1 H2 n m k c r Hk _ E. injection E as <-. eexists. split; [reflexivity|]. unfold cumulative_distribution.
  rewrite restrict_sort_by_level', restrict_cumsum, restrict_sort_rows, restrict_distribution by assumption. reflexivity.
Qed.
