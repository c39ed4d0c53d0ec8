(** The order of the rows does not matter. *)
From Coq Require Import Reals List Bool String Arith ZArith Permutation Sorted Lia Lra.
From Verif Require Import M_Num M_Frame L_Frame M_Leaf S_Leaf L_Leaf M_Ops M_Slices S_Slices L_Slices L_OpsA L_OpsB L_Jackknife3 M_Bootstrap L_Bootstrap M_SqlGlobal M_SqlLeaf S_SqlLeaf L_SqlLeaf L_SqlLeaf2 M_SqlOps S_SqlOps L_SqlOps L_SqlOps2 S_RowOrder.
Import ListNotations.
Open Scope string_scope.
Open Scope list_scope.

Lemma count_perm l l' : Permutation l l' -> count_present l = count_present l'.
Proof. intros H. unfold count_present. apply Permutation_length. now apply filter_perm. Qed.
Lemma xmean_perm l l' : Permutation l l' -> xmean l = xmean l'.
Proof. intros H. unfold xmean. now rewrite (xsum_perm _ _ H), (count_perm _ _ H). Qed.
Lemma xcorr_perm a b l l' : Permutation l l' -> xcorr a b l = xcorr a b l'.
Proof.
  intros H. unfold xcorr, both_present. cbn zeta. set (p := fun r => negb (is_nan (cellx a r)) && negb (is_nan (cellx b r))).
  pose proof (filter_perm p _ _ H) as HP. unfold col_of. rewrite (xmean_perm _ _ (Permutation_map (cellx a) HP)), (xmean_perm _ _ (Permutation_map (cellx b) HP)).
  f_equal; [|f_equal; f_equal]; apply xsum_perm, Permutation_map, HP.
Qed.
Lemma distinct_In l : forall seen x, In x (distinct_from seen l) <-> In (Fin x) l /\ ~ In x seen.
Proof.
  induction l as [|[a| | |] l IH]; intros seen x; cbn [distinct_from]; [cbn; tauto| |rewrite IH; cbn; intuition discriminate..].
  destruct (existsb (Reqb a) seen) eqn:E.
  - rewrite IH. apply existsb_exists in E as (y & Hy & Ey). apply Reqb_eq in Ey as <-. cbn. split; [intros [H1 H2]; auto|]. intros [[H1|H1] H2]; [injection H1 as ->; contradiction|auto].
  - assert (~ In a seen) as Hn. { intros Hi. assert (existsb (Reqb a) seen = true) as E'; [|congruence]. apply existsb_exists. exists a. split; [exact Hi|]. now apply Reqb_eq. }
    cbn [In]. rewrite IH. cbn [In]. split.
    + intros [->|[H1 H2]]; [auto|]. tauto.
    + intros [[H1|H1] H2]; [injection H1 as ->; auto|]. destruct (Req_EM_T a x) as [->|Hne]; [auto|]. right. split; [exact H1|]. intros [H3|H3]; congruence.
Qed.
Lemma distinct_NoDup l : forall seen, NoDup (distinct_from seen l).
Proof.
  induction l as [|[a| | |] l IH]; intros seen; cbn [distinct_from]; try apply IH; [constructor|]. destruct (existsb (Reqb a) seen); [apply IH|]. constructor; [|apply IH].
  rewrite distinct_In. cbn. tauto.
Qed.
Lemma distinct_perm l l' : Permutation l l' -> List.length (distinct_from [] l) = List.length (distinct_from [] l').
Proof.
  intros H. apply Permutation_length, NoDup_Permutation; try apply distinct_NoDup. intros x. rewrite !distinct_In. split; intros [H1 H2]; (split; [|exact H2]); [now apply (Permutation_in _ H)|now apply (Permutation_in _ (Permutation_sym H))].
Qed.
Lemma evalt_perm rows rows' t : Permutation rows rows' -> Forall (fun l => (exists c, l = LSum c) \/ exists c, l = LCount c) (leaves t) ->
  evalt native_value t rows = evalt native_value t rows'.
Proof.
  intros HP. induction t; cbn; intros H; try reflexivity; try (apply Forall_app in H as [H1 H2]; rewrite IHt1, IHt2 by assumption; reflexivity); try (now rewrite IHt by assumption).
  inversion H as [|? ? [[c ->]|[c ->]] _]; subst; unfold native_value; cbn [native]; unfold col_of.
  - apply xsum_perm. now apply Permutation_map.
  - now rewrite (count_perm _ _ (Permutation_map (cellx c) HP)).
Qed.
Lemma leaf_perm l rows rows' : order_free_leaf l -> Permutation rows rows' -> pandas_leaf l rows = pandas_leaf l rows'.
Proof.
  intros Hs HP. destruct l as [m|v|v|v]; cbn [pandas_leaf].
  - assert ({agg | m = LOther agg} + {forall agg, m <> LOther agg}) as [[agg ->]|Hm]; [destruct m; try (right; discriminate); left; eauto|exact (Hs rows rows' HP)|].
    unfold leaf_value. assert (native m rows = native m rows') as ->.
    { pose proof (fun c => Permutation_map (cellx c) HP) as HM. destruct m as [c|c|a b []|c [w|]|c d [w|]|c d [w|]|c d|a b d [w|] [f|]|a b [w|]|agg]; cbn [native]; unfold col_of;
        rewrite ?(xsum_perm _ _ (HM c)), ?(count_perm _ _ (HM c)), ?(xmean_perm _ _ (HM c)), ?(xvar_perm _ _ d (HM c)), ?(xmean_perm _ _ (HM (Times a b))), ?(xsum_perm _ _ (HM (Times a b))), ?(xcorr_perm a b _ _ HP); try reflexivity. now contradiction (Hm agg). }
    destruct (native m rows'); [reflexivity|]. unfold expanded_value. apply evalt_perm; [exact HP|]. now apply full_only.
  - exact (inner_perm KMax v _ _ HP).
  - exact (inner_perm KMin v _ _ HP).
  - unfold agg_nunique, column. now rewrite (distinct_perm _ _ (Permutation_map (fun r => val r v) HP)).
Qed.
Lemma sort_uniq_same l l' : (forall x, In x l <-> In x l') -> sort_uniq l = sort_uniq l'.
Proof. intros H. apply ksorted_ext; [apply sort_uniq_sorted|apply sort_uniq_sorted|]. intros x. now rewrite !sort_uniq_In. Qed.
Lemma slice_perm cols k (df df' : table) : Permutation df df' -> Permutation (slice cols k df) (slice cols k df').
Proof. apply filter_perm. Qed.
Lemma keys_perm cols (df df' : table) : Permutation df df' -> forall k, In k (keys_of cols df) <-> In k (keys_of cols df').
Proof. intros H k. rewrite !L_Slices.keys_of_In. split; intros (r & Hr & E); exists r; (split; [|exact E]); [now apply (Permutation_in _ H)|now apply (Permutation_in _ (Permutation_sym H))]. Qed.
Lemma group_keys_perm cols (df df' : table) : Permutation df df' -> group_keys cols df = group_keys cols df'.
Proof.
  intros H. unfold group_keys. destruct cols; [reflexivity|]. apply sort_uniq_same. now apply keys_perm.
Qed.
Lemma compute_leaf_perm agg cols df df' : (forall rows rows', Permutation rows rows' -> agg rows = agg rows') -> Permutation df df' -> compute_leaf agg cols df = compute_leaf agg cols df'.
Proof.
  intros Ha H. unfold compute_leaf. rewrite (group_keys_perm cols _ _ H). apply map_ext. intros k. f_equal. apply Ha. now apply slice_perm.
Qed.
Section Tree.
  Variable parse : string -> cond.
  Variable psort : cum_how -> bool -> nat -> rframe -> rframe.
  Lemma where_perm w (df df' : table) : Permutation df df' -> Permutation (filter (pfilters parse w) df) (filter (pfilters parse w) df').
  Proof. apply filter_perm. Qed.
  Lemma compute_perm m by_ : order_free_metric m -> forall df df', Permutation df df' -> compute parse m by_ df = compute parse m by_ df'.
  Proof.
    induction m as [l w|op a IHa b IHb w|op r a IH w|op a IH r w|a IH w|a IH w]; cbn [order_free_metric compute]; intros Hf df df' H; pose proof (where_perm w _ _ H) as HW; cbn zeta;
      try (now rewrite (IH Hf _ _ HW)).
    - apply compute_leaf_perm; [|exact HW]. intros rows rows'. now apply leaf_perm.
    - destruct Hf as [H1 H2]. now rewrite (IHa H1 _ _ HW), (IHb H2 _ _ HW).
  Qed.
  Lemma op_perm m : forall by_ df df', order_free m -> Permutation df df' -> op_compute parse psort m by_ df = op_compute parse psort m by_ df'.
  Proof.
    induction m as [m name|over ch IH w|over how asc ch IH w|p cond base incl ch IH w|d over ch IH w|op x IHa y IHb name w|op x ch IH name w|op ch IH x name w];
      intros by_ df df' Hf H; cbn [order_free] in Hf; cbn [op_compute]; cbn zeta; try (pose proof (where_perm w _ _ H) as HW); try (now rewrite (IH _ _ _ Hf HW)).
    - f_equal. now apply compute_perm.
    - destruct Hf as [H1 H2]. now rewrite (IHa by_ _ _ H1 HW), (IHb by_ _ _ H2 HW).
  Qed.
  Lemma tree_fits_perm m : forall by_ df df', order_free m -> Permutation df df' -> tree_fits parse psort m by_ df -> tree_fits parse psort m by_ df'.
  Proof.
    induction m as [m name|over ch IH w|over how asc ch IH w|p cond base incl ch IH w|d over ch IH w|op x IHa y IHb name w|op x ch IH name w|op ch IH x name w];
      intros by_ df df' Hf H Ht; cbn [order_free] in Hf; cbn [tree_fits] in *; cbn zeta in *; auto; pose proof (where_perm w _ _ H) as HW;
      try (destruct Ht as [H1 H2]; split; [exact (IH _ _ _ Hf HW H1)|]; intros fr E; apply H2; rewrite <- E; now apply op_perm).
    destruct Hf as [Fa Fb]. destruct Ht as (H1 & H2 & H3). split; [exact (IHa _ _ _ Fa HW H1)|]. split; [exact (IHb _ _ _ Fb HW H2)|]. intros fa fb Ea Eb. apply H3; [rewrite <- Ea|rewrite <- Eb]; now apply op_perm.
  Qed.

  (** ** SQL *)
  Lemma inputs_perm e rows rows' : Permutation rows rows' -> Permutation (inputs parse e rows) (inputs parse e rows').
  Proof. intros H. apply nonnull_perm. now apply Permutation_map. Qed.
  Lemma pairs_perm e f rows rows' : Permutation rows rows' -> Permutation (pairs parse e f rows) (pairs parse e f rows').
  Proof. intros H. apply nonnull_perm. now apply Permutation_map. Qed.
  Lemma avg_perm l l' : Permutation l l' -> avg l = avg l'.
  Proof. intros H. unfold avg. now rewrite (Rsum_perm _ _ H), (Permutation_length H). Qed.
  Lemma dev_perm l l' : Permutation l l' -> dev l = dev l'.
  Proof. intros H. unfold dev. rewrite (avg_perm _ _ H). apply Rsum_perm. now apply Permutation_map. Qed.
  Lemma codev_perm l l' : Permutation l l' -> codev l = codev l'.
  Proof. intros H. unfold codev. rewrite (avg_perm _ _ (Permutation_map fst H)), (avg_perm _ _ (Permutation_map snd H)). apply Rsum_perm. now apply Permutation_map. Qed.
  Lemma fold1_perm f : (forall a b, f a b = f b a) -> (forall a b c, f a (f b c) = f (f a b) c) -> forall l l', Permutation l l' -> fold1 f l = fold1 f l'.
  Proof.
    intros Hc Ha l l' H. induction H as [|x l l' _ IH|x y l|l1 l2 l3 _ IH1 _ IH2]; [reflexivity| | |congruence].
    - cbn. now rewrite IH.
    - cbn. destruct (fold1 f l) as [z|]; f_equal; [|apply Hc]. now rewrite !Ha, (Hc y x).
  Qed.
  Lemma nodup_len_perm (l l' : list R) : Permutation l l' -> List.length (nodup Req_EM_T l) = List.length (nodup Req_EM_T l').
  Proof. intros H. apply Permutation_length, NoDup_Permutation; try apply NoDup_nodup. intros x. rewrite !nodup_In. split; apply Permutation_in; [exact H|now symmetry]. Qed.
  Lemma sagg_perm a rows rows' : Permutation rows rows' -> sagg_value parse a rows = sagg_value parse a rows'.
  Proof.
    intros H. destruct a as [e|e|e|e|e|e|e|e|e|e|e f|e f|e f]; cbn [sagg_value]; cbn zeta; try pose proof (inputs_perm e _ _ H) as HI; try pose proof (pairs_perm e f _ _ H) as HQ; unfold unless_fewer;
      rewrite ?(Permutation_length HI), ?(Rsum_perm _ _ HI), ?(avg_perm _ _ HI), ?(dev_perm _ _ HI), ?(nodup_len_perm _ _ HI), ?(Permutation_length HQ), ?(codev_perm _ _ HQ); try reflexivity.
    - apply fold1_perm; [exact Rmax_comm|intros; apply Rmax_assoc|exact HI].
    - apply fold1_perm; [exact Rmin_comm|intros; apply Rmin_assoc|exact HI].
    - now rewrite (dev_perm _ _ (Permutation_map fst HQ)), (dev_perm _ _ (Permutation_map snd HQ)).
  Qed.
  Lemma sexpr_perm x rows rows' : Permutation rows rows' -> sexpr_value parse x rows = sexpr_value parse x rows'.
  Proof. intros H. induction x; cbn [sexpr_value]; rewrite ?IHx, ?IHx1, ?IHx2; try reflexivity. now apply sagg_perm. Qed.
  Lemma fits_perm x rows rows' : Permutation rows rows' -> fits parse x rows -> fits parse x rows'.
  Proof.
    intros H. induction x as [a|r|a IHa b IHb|a IHa b IHb|a IHa b IHb|a IHa b IHb|a IHa|a IHa]; cbn [fits]; auto; try tauto.
    - destruct a; auto. intros (r & Hr & E). exists r. split; [now apply (Permutation_in _ H)|exact E].
    - rewrite !(sexpr_perm _ _ _ H). tauto.
  Qed.
  Lemma leaf_fits_perm wh m above loc by_ t t' : Permutation t t' -> leaf_fits parse wh m above loc by_ t -> leaf_fits parse wh m above loc by_ t'.
  Proof.
    intros H (H1 & H2 & H3). pose proof (Permutation_sym H) as H'. split; [|split].
    - intros l fs Hl. destruct (H1 l fs Hl) as (A & B & C). split; [exact A|]. split; [exact B|]. intros f r Hf Hr. apply C; [exact Hf|]. now apply (Permutation_in _ H').
    - intros r c Hr. apply H2. now apply (Permutation_in _ H').
    - intros k Hk. assert ((by_ = [] /\ k = []) \/ (exists r, In r t /\ spass parse wh r = true /\ srow_key by_ r = List.map Some k)) as Hk'.
      { destruct Hk as [Hk|(r & Hr & E)]; [now left|]. right. exists r. split; [now apply (Permutation_in _ H')|exact E]. }
      destruct (H3 k Hk') as [H4 H5]. split.
      + intros l fs Hl. destruct (H4 l fs Hl) as [H6 H7]. assert (Permutation (used_rows parse by_ k fs t) (used_rows parse by_ k fs t')) as HU by (now apply filter_perm). split.
        * destruct H6 as [H6|H6]; [now left|]. right. intros E. rewrite E in HU. symmetry in HU. apply Permutation_nil in HU. contradiction.
        * destruct l as [lm|v|v|v]; cbn [cov_same_nulls] in *; auto. destruct lm as [c|c|a b n|c w|c d w|c d w|c d|a b d w f|a b w|agg]; auto. destruct w, f; auto. intros r Hr. apply H7. apply (Permutation_in _ (Permutation_sym HU)). exact Hr.
      + eapply fits_perm; [|exact H5]. apply filter_perm. now apply filter_perm.
  Qed.
End Tree.
Lemma pandas_perm t t' : Permutation t t' -> Permutation (pandas_table t) (pandas_table t').
Proof. apply Permutation_map. Qed.
Lemma supported_free l : supported l -> order_free_leaf l.
Proof. destruct l as [m|v|v|v]; cbn; auto. destruct m; cbn; auto. intros []. Qed.
Lemma metric_free m : forall above, (forall l fs, In (l, fs) (leaves_with_filters above m) -> supported l) -> order_free_metric m.
Proof.
  induction m as [l w|op a IHa b IHb w|op r a IH w|op a IH r w|a IH w|a IH w]; cbn [leaves_with_filters order_free_metric]; intros ab H; try (now apply (IH (ab ++ w))).
  - apply supported_free. eapply H. now left.
  - split; [apply (IHa (ab ++ w))|apply (IHb (ab ++ w))]; intros l fs Hl; eapply H, in_or_app; eauto.
Qed.
Lemma tree_free wh m : forall by_ above loc, (forall b ab lc by', In (b, ab, lc, by') (bottoms wh m by_ above loc) -> forall l fs, In (l, fs) (leaves_with_filters ab b) -> supported l) -> order_free m.
Proof.
  induction m as [m name|over ch IH w|over how asc ch IH w|p cond base incl ch IH w|d over ch IH w|op x IHa y IHb name w|op x ch IH name w|op ch IH x name w];
    intros by_ ab lc H; cbn [bottoms] in H; cbn [order_free]; try (eapply IH; exact H).
  - apply (metric_free m ab). intros l fs. apply (H m ab lc by_). now left.
  - split; [eapply IHa|eapply IHb]; intros b ab' lc' by' Hb; eapply H, in_or_app; eauto.
Qed.
