(** A tree split by fewer columns; a column that the tree does not read. *)
From Coq Require Import Reals List Bool String Arith ZArith Permutation Lia.
From Verif Require Import M_Num M_Frame L_Frame M_Ops M_Leaf S_Leaf M_SqlGlobal M_SqlLeaf S_SqlLeaf L_Leaf L_SqlLeaf L_SqlLeaf2 M_SqlOps S_SqlOps M_SqlJackknife S_SqlJackknife.
Import ListNotations.
Open Scope string_scope.
Open Scope list_scope.

Lemma nodup_drop {A} (a b c : list A) : NoDup (a ++ b ++ c) -> NoDup (a ++ c).
Proof.
  intros H. induction b as [|x b IH]; [exact H|]. apply IH. apply (NoDup_remove_1 a (b ++ c) x). exact H.
Qed.
Lemma not_in_drop (a b c e : list string) x : ~ In x ((a ++ b ++ c) ++ e) -> ~ In x ((a ++ c) ++ e).
Proof. rewrite !in_app_iff. tauto. Qed.
Lemma supported_drop m : forall a b c, supported_tree (a ++ b ++ c) m -> supported_tree (a ++ c) m.
Proof.
  assert (forall (a b c e : list string), (a ++ b ++ c) ++ e = a ++ b ++ (c ++ e)) as EA by (intros; now rewrite <- !app_assoc).
  assert (forall (a c e : list string), (a ++ c) ++ e = a ++ (c ++ e)) as EB by (intros; now rewrite <- !app_assoc).
  induction m as [m name|over ch IH w|over how asc ch IH w|p cond base incl ch IH w|d over ch IH w|op x IHa y IHb name w|op x ch IH name w|op ch IH x name w];
    intros a b c H; cbn [supported_tree] in *; destruct H as [Hv H]; (split; [now apply not_in_drop in Hv|]).
  - eapply nodup_drop; eauto.
  - destruct H as (H1 & H2 & H3). split; [auto|]. split; [auto|]. rewrite EA in H3. rewrite EB. eapply IH; eauto.
  - destruct H as (H1 & H2 & H3 & H4 & H5). repeat (split; [solve [auto | now apply not_in_drop in H3]|]). rewrite EA in H5. rewrite EB. eapply IH; eauto.
  - destruct H as (H1 & H2 & H3). repeat (split; [solve [auto]|]). rewrite EA in H3. rewrite EB. eapply IH; eauto.
  - destruct H as (H1 & H2 & H3 & H4). repeat (split; [solve [auto | rewrite in_app_iff in *; rewrite in_app_iff in H3; tauto]|]). rewrite EA in H4. rewrite EB. eapply IH; eauto.
  - destruct H as (H1 & H2 & H3 & H4 & H5 & H6). repeat (split; [solve [eauto | now apply not_in_drop in H4 | now apply not_in_drop in H5]|]). exact H6.
  - eapply IH; eauto.
  - eapply IH; eauto.
Qed.

Lemma bottoms_prefix wh m s : forall e ab lc b fs l by', In (b, fs, l, by') (bottoms wh m (s ++ e) ab lc) <-> exists e', by' = s ++ e' /\ In (b, fs, l, e') (bottoms wh m e ab lc).
Proof.
  induction m as [m name|over ch IH w|over how asc ch IH w|p cond base incl ch IH w|d over ch IH w|op x IHa y IHb name w|op x ch IH name w|op ch IH x name w];
    intros e ab lc b fs l by'; cbn [bottoms]; rewrite <- ?app_assoc; auto.
  - split.
    + intros [H|[]]. injection H as <- <- <- <-. exists e. split; [reflexivity|now left].
    + intros (e' & -> & [H|[]]). injection H as <- <- <- <-. now left.
  - rewrite in_app_iff, IHa, IHb. split.
    + intros [(e' & -> & H)|(e' & -> & H)]; exists e'; (split; [reflexivity|]); apply in_or_app; auto.
    + intros (e' & -> & H). apply in_app_or in H as [H|H]; [left|right]; eauto.
Qed.

(** ** Another label in one column *)
Section Relabel.
  Variable x : option string.
  Definition G (r : drow) : drow := Row (fun c => if String.eqb c resample_idx then x else lab r c) (val r).
  Lemma pandas_relabel r : pandas_row (relabel x r) = G (pandas_row r). Proof. reflexivity. Qed.
  Lemma pandas_relabels t : pandas_table (List.map (relabel x) t) = List.map G (pandas_table t).
  Proof. unfold pandas_table. rewrite !map_map. apply map_ext. intros r. apply pandas_relabel. Qed.

  Lemma cellx_G c r : cellx c (G r) = cellx c r.
  Proof. induction c; cbn; congruence. Qed.
  Lemma col_G c rows : col_of c (List.map G rows) = col_of c rows.
  Proof. unfold col_of. rewrite map_map. apply map_ext. intros r. apply cellx_G. Qed.
  Lemma column_G v rows : column v (List.map G rows) = column v rows.
  Proof. unfold column. rewrite map_map. reflexivity. Qed.
  Lemma filter_G p rows : (forall r, p (G r) = p r) -> filter p (List.map G rows) = List.map G (filter p rows).
  Proof. intros H. rewrite filter_map_comm. f_equal. apply filter_ext. auto. Qed.
  Lemma xcorr_G a b rows : xcorr a b (List.map G rows) = xcorr a b rows.
  Proof.
    unfold xcorr, both_present. rewrite filter_G by (intros r; now rewrite !cellx_G). rewrite !col_G, !map_map.
    rewrite (map_ext (fun r => xmul (xsub (cellx a (G r)) _) (xsub (cellx b (G r)) _)) (fun r => xmul (xsub (cellx a r) (xmean (col_of a (filter (fun r => negb (is_nan (cellx a r)) && negb (is_nan (cellx b r))) rows)))) (xsub (cellx b r) (xmean (col_of b (filter (fun r => negb (is_nan (cellx a r)) && negb (is_nan (cellx b r))) rows)))))) by (intros r; now rewrite !cellx_G).
    rewrite (map_ext (fun r => xsq (xsub (cellx a (G r)) _)) (fun r => xsq (xsub (cellx a r) (xmean (col_of a (filter (fun r => negb (is_nan (cellx a r)) && negb (is_nan (cellx b r))) rows)))))) by (intros r; now rewrite !cellx_G).
    rewrite (map_ext (fun r => xsq (xsub (cellx b (G r)) _)) (fun r => xsq (xsub (cellx b r) (xmean (col_of b (filter (fun r => negb (is_nan (cellx a r)) && negb (is_nan (cellx b r))) rows)))))) by (intros r; now rewrite !cellx_G).
    reflexivity.
  Qed.
  Lemma evalt_G rows t : Forall (fun l => (exists c, l = LSum c) \/ exists c, l = LCount c) (leaves t) ->
    evalt native_value t (List.map G rows) = evalt native_value t rows.
  Proof.
    induction t; cbn; intros H; try reflexivity; try (apply Forall_app in H as [H1 H2]; rewrite IHt1, IHt2 by assumption; reflexivity); try (now rewrite IHt by assumption).
    inversion H as [|? ? [[c ->]|[c ->]] _]; subst; unfold native_value; cbn [native]; now rewrite col_G.
  Qed.
  Lemma leaf_G l rows : supported l -> pandas_leaf l (List.map G rows) = pandas_leaf l rows.
  Proof.
    intros Hs. destruct l as [m|v|v|v]; cbn [pandas_leaf]; unfold agg_max, agg_min, agg_nunique; rewrite ?column_G; try reflexivity.
    assert (forall agg, m <> LOther agg) as Hm by (intros agg ->; exact Hs).
    unfold leaf_value. assert (native m (List.map G rows) = native m rows) as ->.
    { destruct m as [c|c|a b []|c [w|]|c d [w|]|c d [w|]|c d|a b d [w|] [f|]|a b [w|]|agg]; cbn [native]; rewrite ?col_G, ?xcorr_G; try reflexivity. now contradiction (Hm agg). }
    destruct (native m rows); [reflexivity|]. unfold expanded_value. apply evalt_G. now apply full_only.
  Qed.

  Variable parse : string -> cond.
  Hypothesis Hparse : forall f, ~ In resample_idx (cond_labels (parse f)).

  Lemma ptest_G p r : ~ In resample_idx (cond_labels p) -> ptest p (G r) = ptest p r.
  Proof.
    induction p as [a op b|c v|c v|c vs|p IHp q IHq|p IHp q IHq|p IHp]; cbn; intros H; try (rewrite IHp, IHq by (rewrite in_app_iff in H; tauto); reflexivity); try (now rewrite IHp);
      try (destruct (String.eqb_spec c resample_idx) as [E|_]; [exfalso; apply H; left; exact E|reflexivity]).
    destruct a, b; reflexivity.
  Qed.
  Lemma stest_G p r : ~ In resample_idx (cond_labels p) -> stest p (relabel x r) = stest p r.
  Proof.
    induction p as [a op b|c v|c v|c vs|p IHp q IHq|p IHp q IHq|p IHp]; cbn; intros H; try (rewrite IHp, IHq by (rewrite in_app_iff in H; tauto); reflexivity); try (now rewrite IHp);
      try (destruct (String.eqb_spec c resample_idx) as [E|_]; [exfalso; apply H; left; exact E|reflexivity]).
    destruct a, b; reflexivity.
  Qed.
  Lemma pfilters_G fs r : pfilters parse fs (G r) = pfilters parse fs r.
  Proof. unfold pfilters. induction fs as [|f fs IH]; cbn; [reflexivity|]. now rewrite IH, ptest_G. Qed.
  Lemma sfilters_G fs r : sfilters parse fs (relabel x r) = sfilters parse fs r.
  Proof. unfold sfilters. induction fs as [|f fs IH]; cbn; [reflexivity|]. now rewrite IH, stest_G. Qed.
  Lemma spass_G fs r : spass parse fs (relabel x r) = spass parse fs r.
  Proof. unfold spass. now rewrite sfilters_G. Qed.
  Lemma where_G fs df : filter (pfilters parse fs) (List.map G df) = List.map G (filter (pfilters parse fs) df).
  Proof. apply filter_G. intros r. apply pfilters_G. Qed.

  Lemma row_key_G cols r : ~ In resample_idx cols -> row_key cols (G r) = row_key cols r.
  Proof.
    induction cols as [|c cols IH]; cbn; intros H; [reflexivity|]. rewrite IH by tauto. destruct (String.eqb_spec c resample_idx) as [E|_]; [exfalso; apply H; auto|reflexivity].
  Qed.
  Lemma slice_G cols k df : ~ In resample_idx cols -> slice cols k (List.map G df) = List.map G (slice cols k df).
  Proof. intros H. apply filter_G. intros r. unfold has_key. now rewrite row_key_G. Qed.
  Lemma group_keys_G cols df : ~ In resample_idx cols -> group_keys cols (List.map G df) = group_keys cols df.
  Proof.
    intros H. unfold group_keys. destruct cols as [|c cols]; [reflexivity|]. f_equal. induction df as [|r df IH]; [reflexivity|]. cbn [List.map keys_of]. rewrite row_key_G by assumption. now rewrite IH.
  Qed.
  Lemma compute_leaf_G l cols df : supported l -> ~ In resample_idx cols -> compute_leaf (pandas_leaf l) cols (List.map G df) = compute_leaf (pandas_leaf l) cols df.
  Proof. intros Hl H. unfold compute_leaf. rewrite group_keys_G by assumption. apply map_ext. intros k. now rewrite slice_G, leaf_G. Qed.

  Fixpoint leaves_ok (m : metric) : Prop :=
    match m with MLeaf l _ => supported l | MOp _ a b _ => leaves_ok a /\ leaves_ok b | MConstL _ _ a _ | MConstR _ a _ _ | MSqrt a _ | MSq a _ => leaves_ok a end.
  Lemma compute_G m cols : ~ In resample_idx cols -> leaves_ok m -> forall df, compute parse m cols (List.map G df) = compute parse m cols df.
  Proof.
    intros H. induction m as [l w|op a IHa b IHb w|op r a IHa w|op a IHa r w|a IHa w|a IHa w]; cbn [leaves_ok compute]; intros Hm df; rewrite where_G; try (now rewrite IHa).
    - now apply compute_leaf_G.
    - destruct Hm. now rewrite IHa, IHb.
  Qed.

  Variable psort : cum_how -> bool -> nat -> rframe -> rframe.
  Fixpoint tree_avoids (by_ : list string) (m : otree) : Prop :=
    match m with
    | OLeaf m _ => ~ In resample_idx by_ /\ leaves_ok m
    | ODist over c _ | OCum over _ _ c _ | OChange _ over _ _ c _ | ODiv _ over c _ => tree_avoids (by_ ++ over) c
    | OBin _ a b _ _ => tree_avoids by_ a /\ tree_avoids by_ b
    | OConstL _ _ c _ _ | OConstR _ c _ _ _ => tree_avoids by_ c
    end.
  Lemma op_compute_G m : forall by_ df, tree_avoids by_ m -> op_compute parse psort m by_ (List.map G df) = op_compute parse psort m by_ df.
  Proof.
    induction m as [m name|over ch IH w|over how asc ch IH w|p cond base incl ch IH w|d over ch IH w|op a IHa b IHb name w|op y ch IH name w|op ch IH y name w];
      intros by_ df H; cbn [tree_avoids op_compute] in *; rewrite ?where_G; try (now rewrite IH).
    - destruct H. now rewrite compute_G.
    - destruct H. now rewrite IHa, IHb.
  Qed.
  Lemma tree_fits_G m : forall by_ df, tree_avoids by_ m -> tree_fits parse psort m by_ df -> tree_fits parse psort m by_ (List.map G df).
  Proof.
    induction m as [m name|over ch IH w|over how asc ch IH w|p cond base incl ch IH w|d over ch IH w|op a IHa b IHb name w|op y ch IH name w|op ch IH y name w];
      intros by_ df Ha H; cbn [tree_avoids tree_fits] in *; cbn zeta in *; auto; rewrite ?where_G in *;
      try (destruct H as [H1 H2]; split; [now apply IH|]; intros fr E; rewrite op_compute_G in E by assumption; now apply H2).
    destruct Ha as [Aa Ab], H as (H1 & H2 & H3). split; [auto|]. split; [auto|]. intros fa fb Ea Eb. rewrite op_compute_G in Ea, Eb by assumption. now apply H3.
  Qed.
End Relabel.
Lemma leaves_ok_from m : forall above, (forall l fs, In (l, fs) (leaves_with_filters above m) -> supported l) -> leaves_ok m.
Proof.
  induction m as [l w|op a IHa b IHb w|op r a IHa w|op a IHa r w|a IHa w|a IHa w]; intros above H; cbn [leaves_with_filters leaves_ok] in *; eauto.
  - apply (H l (above ++ w)). now left.
  - split; [apply (IHa (above ++ w))|apply (IHb (above ++ w))]; intros l fs Hl; apply (H l fs), in_or_app; auto.
Qed.
(** the tree does not read the column if it may be split by it *)
Lemma avoids_from wh m : forall a b ab lc, supported_tree (a ++ resample_idx :: b) m ->
  (forall b' ab' lc' by', In (b', ab', lc', by') (bottoms wh m (a ++ b) ab lc) -> leaves_ok b') -> tree_avoids (a ++ b) m.
Proof.
  assert (forall (a b e : list string), (a ++ resample_idx :: b) ++ e = a ++ resample_idx :: (b ++ e)) as EA by (intros; now rewrite <- !app_assoc).
  assert (forall (a c e : list string), (a ++ c) ++ e = a ++ (c ++ e)) as EB by (intros; now rewrite <- !app_assoc).
  induction m as [m name|over ch IH w|over how asc ch IH w|p cond base incl ch IH w|d over ch IH w|op x IHa y IHb name w|op x ch IH name w|op ch IH x name w];
    intros a b ab lc H HL; cbn [supported_tree tree_avoids bottoms] in *; destruct H as [Hv H].
  - split; [|eapply HL; now left]. now apply NoDup_remove_2 in H.
  - destruct H as (_ & _ & H). rewrite EA in H. rewrite EB in *. eapply IH; eauto.
  - destruct H as (_ & _ & _ & _ & H). rewrite EA in H. rewrite EB in *. eapply IH; eauto.
  - destruct H as (_ & _ & H). rewrite EA in H. rewrite EB in *. eapply IH; eauto.
  - destruct H as (_ & _ & _ & H). rewrite EA in H. rewrite EB in *. eapply IH; eauto.
  - destruct H as (H1 & H2 & _). split; [eapply IHa|eapply IHb]; eauto; intros ? ? ? ? Hi; eapply HL, in_or_app; eauto.
  - eapply IH; eauto.
  - eapply IH; eauto.
Qed.
