(** Lemmas for C22, trees of operations with arithmetic between different index levels. *)
From Coq Require Import Reals List Bool String Arith Lia.
From Verif Require Import M_Num M_Frame L_Frame M_Leaf M_Ops M_Slices S_Slices L_Slices L_Slices2 L_OpsA L_OpsB S_Ops M_SqlGlobal M_SqlLeaf M_SqlOps L_SqlJack3 S_SliceTree.
Import ListNotations.
Open Scope string_scope.
Open Scope list_scope.

Section Tree.
  Variable parse : string -> cond.
  Variable leb : cum_how -> bool -> list string * num -> list string * num -> bool.
  Hypothesis Htot : forall how asc a b, leb how asc a b = true \/ leb how asc b a = true.
  Hypothesis Htr : forall how asc a b c, leb how asc a b = true -> leb how asc b c = true -> leb how asc a c = true.
  Notation psort := (fun how asc n => sort_rows (leb how asc) n).

  Lemma compute_slice1 m : forall s e k df, leaf_rows parse m (slice s k df) -> List.length k = List.length s ->
    restrict (List.length s) k (compute parse m (s ++ e) df) = compute parse m e (slice s k df).
  Proof.
    induction m as [l w|op a IHa b IHb w|op x a IHa w|op a IHa x w|a IHa w|a IHa w]; intros s e k df H Hk; cbn [compute leaf_rows] in *; rewrite <- filter_slice in *.
    - now apply leaf_slice.
    - destruct H as [H1 H2]. rewrite restrict_align_op by assumption. now rewrite IHa, IHb.
    - rewrite (restrict_mapv _ k (fun _ v => num_op op (Fin x) v)) by assumption. now rewrite IHa.
    - rewrite (restrict_mapv _ k (fun _ v => num_op op v (Fin x))) by assumption. now rewrite IHa.
    - rewrite (restrict_mapv _ k (fun _ v => xsqrt v)) by assumption. now rewrite IHa.
    - rewrite (restrict_mapv _ k (fun _ v => xsq v)) by assumption. now rewrite IHa.
  Qed.

  Lemma restrict_kept n k (p : list string * num -> bool) (l : rframe) : (forall q, In q l -> firstn n (fst q) = k -> p q = true) -> restrict n k (filter p l) = restrict n k l.
  Proof.
    intros H. unfold restrict. f_equal. induction l as [|q l IH]; [reflexivity|]. cbn [filter]. destruct (key_eqb (firstn n (fst q)) k) eqn:E.
    - apply key_eqb_eq in E. rewrite (H q (or_introl eq_refl) E). cbn [filter]. rewrite (proj2 (key_eqb_eq _ _) E), IH; [reflexivity|]. intros; apply H; auto. now right.
    - destruct (p q); cbn [filter]; rewrite ?E; apply IH; intros; apply H; auto; now right.
  Qed.
  Lemma top_k_filter K n c : top_k K n c =
    match n with O => groupby_level n (fun l => xsum (nlargest K l)) (distribution n c)
    | _ => filter (fun q => match nlargest K (List.map snd (filter (fun r => key_eqb (firstn n (fst r)) (fst q)) (distribution n c))) with [] => false | _ => true end)
                  (groupby_level n (fun l => xsum (nlargest K l)) (distribution n c)) end.
  Proof.
    unfold top_k, groupby_level. destruct n as [|n]; [reflexivity|]. set (N := S n). induction (level_keys N (distribution N c)) as [|g l IH]; [reflexivity|]. cbn [List.map filter fst snd].
    destruct (nlargest K (List.map snd (filter (fun r => key_eqb (firstn N (fst r)) g) (distribution N c)))) as [|a b] eqn:E; cbn [List.map fst snd]; rewrite ?IH; reflexivity.
  Qed.
  Lemma top_k_all K n c : (forall g, In g (groupby_level n (nlargest K) (distribution n c)) -> snd g <> []) -> top_k K n c = groupby_level n (fun l => xsum (nlargest K l)) (distribution n c).
  Proof.
    intros H. rewrite top_k_filter. destruct n as [|n]; [reflexivity|]. set (N := S n) in *. apply filter_all. intros q Hq. unfold groupby_level in Hq. apply in_map_iff in Hq as (g & <- & Hg). cbn [fst].
    specialize (H (g, nlargest K (List.map snd (filter (fun r => key_eqb (firstn N (fst r)) g) (distribution N c))))). cbn [snd] in H. destruct (nlargest _ _) eqn:EL; [|reflexivity]. exfalso. apply H; [|reflexivity]. rewrite <- EL.
    unfold groupby_level. apply in_map_iff. exists g. split; [|exact Hg]. reflexivity.
  Qed.
  Lemma top_k_slice K n m k c : List.length k = n -> restrict n k c <> [] ->
    (forall g, In g (groupby_level m (nlargest K) (distribution m (restrict n k c))) -> snd g <> []) -> restrict n k (top_k K (n + m) c) = top_k K m (restrict n k c).
  Proof.
    intros Hk Hne H. rewrite (top_k_all K m _ H).
    assert (restrict n k (groupby_level (n + m) (fun l => xsum (nlargest K l)) (distribution (n + m) c)) = groupby_level m (fun l => xsum (nlargest K l)) (distribution m (restrict n k c))) as E.
    { rewrite restrict_groupby by auto using restrict_nil_dist. now rewrite restrict_distribution. }
    rewrite <- E. rewrite top_k_filter. destruct (n + m)%nat as [|N'] eqn:EN; [reflexivity|]. rewrite <- EN. apply restrict_kept. intros q Hq Hf.
    pose proof Hq as Hq'. unfold groupby_level in Hq'. apply in_map_iff in Hq' as (g & <- & Hg). cbn [fst] in *.
    apply level_keys_In in Hg as [[E0 _]|(_ & r & Hr & Eg)]; [lia|].
    assert (g = k ++ skipn n g) as Eg' by (rewrite <- Hf; now rewrite firstn_skipn).
    rewrite Eg'. set (g2 := skipn n g) in *.
    assert (List.map snd (filter (fun r0 => key_eqb (firstn (n + m) (fst r0)) (k ++ g2)) (distribution (n + m) c)) = vals m g2 (distribution m (restrict n k c))) as ->.
    { rewrite <- restrict_distribution by assumption. now rewrite vals_restrict. }
    specialize (H (g2, nlargest K (vals m g2 (distribution m (restrict n k c))))). cbn [snd] in H. destruct (nlargest K (vals m g2 (distribution m (restrict n k c)))) eqn:EL; [|reflexivity]. exfalso. apply H; [|reflexivity].
    unfold groupby_level. apply in_map_iff. exists g2. split; [f_equal; exact EL|]. apply level_keys_In. destruct m as [|m']; [left; split; [reflexivity|]|right; split; [discriminate|]].
    - unfold g2. rewrite <- Eg. rewrite Nat.add_0_r. now rewrite skipn_firstn_comm, Nat.sub_diag.
    - exists (skipn n (fst r), snd r). split.
      + rewrite <- restrict_distribution by assumption. unfold restrict. apply in_map_iff. exists r. split; [reflexivity|]. apply filter_In. split; [exact Hr|]. apply key_eqb_eq.
        rewrite <- Hf, <- Eg, firstn_firstn, Nat.min_l by lia. reflexivity.
      + cbn [fst]. unfold g2. rewrite <- Eg. rewrite skipn_firstn_comm. f_equal. lia.
  Qed.

  Lemma tree_slice m : forall s e k df r, distinct_levels m (s ++ e) -> List.length k = List.length s -> rows_everywhere parse psort m e (slice s k df) ->
    op_compute parse psort m e (slice s k df) = Some r -> exists R, op_compute parse psort m (s ++ e) df = Some R /\ restrict (List.length s) k R = r.
  Proof.
    induction m as [m name|over c IH w|over how asc c IH w|p cond base incl c IH w|d over c IH w|op a IHa b IHb name w|op x c IH name w|op c IH x name w];
      intros s e k df r HD Hk HR Hr; cbn [op_compute rows_everywhere distinct_levels] in *; cbn zeta in *; try rewrite <- filter_slice in *.
    - injection Hr as <-. eexists. split; [reflexivity|]. now apply compute_slice1.
    - rewrite <- app_assoc in *. destruct HR as [HR Hne]. destruct (op_compute parse psort c (e ++ over) _) as [fr|] eqn:E; [|discriminate]. destruct (IH s (e ++ over) k _ _ HD Hk HR E) as (F & -> & <-).
      cbn [option_map] in *. rewrite app_length. apply (slicewise_distribution (List.length s) (List.length e)); auto. intros E0; apply Hne; now rewrite E0.
    - rewrite <- app_assoc in *. destruct HR as [HR Hne]. destruct (op_compute parse psort c (e ++ over) _) as [fr|] eqn:E; [|discriminate]. destruct (IH s (e ++ over) k _ _ HD Hk HR E) as (F & -> & <-).
      cbn [option_map] in *. rewrite app_length. assert (restrict (List.length s) k F <> []) as Hn by (intros E0; apply Hne; now rewrite E0). destruct how as [|o|].
      + apply (slicewise_cumdist_sort (leb CumOver asc)); auto. apply Htr.
      + apply (slicewise_cumdist_order (if asc then o else rev o)); auto.
      + apply (slicewise_cumdist_sort (leb CumValues asc)); auto. apply Htr.
    - rewrite <- app_assoc in *. destruct HR as [HR Hne]. destruct (op_compute parse psort c (e ++ cond) _) as [fr|] eqn:E; [|discriminate]. destruct (IH s (e ++ cond) k _ _ HD Hk HR E) as (F & -> & <-).
      rewrite app_length. assert (restrict (List.length s) k F <> []) as Hn by (intros E0; apply Hne; now rewrite E0). destruct p; apply (slicewise_compare _ (List.length cond) base incl); auto.
    - rewrite <- app_assoc in *. destruct HR as (HR & Hne & HT). destruct (op_compute parse psort c (e ++ over) _) as [fr|] eqn:E; [|discriminate]. destruct (IH s (e ++ over) k _ _ HD Hk HR E) as (F & -> & <-).
      cbn [option_map] in *. rewrite app_length. assert (restrict (List.length s) k F <> []) as Hn by (intros E0; apply Hne; now rewrite E0). destruct d as [| |K|share].
      + apply (slicewise_hhi (List.length s) (List.length e)); auto.
      + apply (slicewise_entropy (List.length s) (List.length e)); auto.
      + injection Hr as <-. eexists. split; [reflexivity|]. apply top_k_slice; auto. intros g Hg. exact (HT _ eq_refl g Hg).
      + apply (slicewise_nxx share (List.length s) (List.length e)); auto.
    - destruct HD as (Da & Db & Na & Nb). destruct HR as [Ra Rb]. destruct (op_compute parse psort a e _) as [fa|] eqn:Ea; [|discriminate]. destruct (op_compute parse psort b e _) as [fb|] eqn:Eb; [|discriminate].
      destruct (IHa s e k _ _ Da Hk Ra Ea) as (A & -> & <-). destruct (IHb s e k _ _ Db Hk Rb Eb) as (B & -> & <-). injection Hr as <-. eexists. split; [reflexivity|].
      rewrite <- !app_assoc in *. now apply bin_restrict.
    - destruct (op_compute parse psort c e _) as [fr|] eqn:E; [|discriminate]. destruct (IH s e k _ _ HD Hk HR E) as (F & -> & <-). injection Hr as <-. eexists. split; [reflexivity|].
      now apply (restrict_mapv _ k (fun _ v => num_op op (Fin x) v)).
    - destruct (op_compute parse psort c e _) as [fr|] eqn:E; [|discriminate]. destruct (IH s e k _ _ HD Hk HR E) as (F & -> & <-). injection Hr as <-. eexists. split; [reflexivity|].
      now apply (restrict_mapv _ k (fun _ v => num_op op v (Fin x))).
  Qed.

  Lemma compute_keys m : forall s e df q, s <> [] -> In q (compute parse m (s ++ e) df) -> slice s (firstn (List.length s) (fst q)) df <> [].
  Proof.
    assert (forall s w df q, slice s (firstn (List.length s) q) (filter (pfilters parse w) df) <> [] -> slice s (firstn (List.length s) q) df <> []) as HF.
    { intros s w df q H. rewrite filter_slice in H. now apply filter_ne in H. }
    induction m as [l w|op a IHa b IHb w|op x a IHa w|op a IHa x w|a IHa w|a IHa w]; intros s e df q Hs Hq; cbn [compute] in Hq; apply (HF s w).
    - unfold compute_leaf in Hq. apply in_map_iff in Hq as (g & <- & Hg). cbn [fst]. apply group_keys_In in Hg as [[E _]|(_ & r & Hr & Hk)]; [apply app_eq_nil in E as [E _]; contradiction|].
      rewrite row_key_app in Hk. destruct (row_key s r) as [k1|] eqn:E1; [|discriminate]. destruct (row_key e r) as [k2|]; [|discriminate]. injection Hk as <-.
      rewrite firstn_app_len by (now apply row_key_length in E1). apply slice_nonempty. eauto.
    - unfold M_SqlLeaf.align in Hq. apply in_map_iff in Hq as (q' & <- & Hq). cbn [fst]. apply sort_uniq_In, in_app_or in Hq as [Hq|Hq]; apply in_map_iff in Hq as (q'' & <- & Hq); [now apply (IHa s e)|now apply (IHb s e)].
    - apply in_map_iff in Hq as (q' & <- & Hq). exact (IHa s e _ _ Hs Hq).
    - apply in_map_iff in Hq as (q' & <- & Hq). exact (IHa s e _ _ Hs Hq).
    - apply in_map_iff in Hq as (q' & <- & Hq). exact (IHa s e _ _ Hs Hq).
    - apply in_map_iff in Hq as (q' & <- & Hq). exact (IHa s e _ _ Hs Hq).
  Qed.
  Lemma tree_keys m : forall s e df R q, s <> [] -> op_compute parse psort m (s ++ e) df = Some R -> In q R -> slice s (firstn (List.length s) (fst q)) df <> [].
  Proof.
    assert (forall s w df q, slice s (firstn (List.length s) q) (filter (pfilters parse w) df) <> [] -> slice s (firstn (List.length s) q) df <> []) as HF.
    { intros s w df q H. rewrite filter_slice in H. now apply filter_ne in H. }
    assert (forall o c over w s e df R q, (forall fr q', op_compute parse psort c (s ++ e ++ over) (filter (pfilters parse w) df) = Some fr -> In q' fr -> slice s (firstn (List.length s) (fst q')) (filter (pfilters parse w) df) <> []) ->
              adds_no_slices o -> s <> [] -> match op_compute parse psort c ((s ++ e) ++ over) (filter (pfilters parse w) df) with Some fr => o (List.length (s ++ e)) fr | None => None end = Some R -> In q R -> slice s (firstn (List.length s) (fst q)) df <> []) as HO.
    { intros o c over w s e df R q IH Ho Hs HR Hq. rewrite <- app_assoc in HR. destruct (op_compute parse psort c (s ++ e ++ over) _) as [fr|] eqn:E; [|discriminate].
      destruct (Ho (List.length (s ++ e)) fr R q) as (p & Hp & Ep); auto. { rewrite app_length. destruct s; [contradiction|cbn; lia]. }
      specialize (IH fr p eq_refl Hp). apply (HF s w). apply (f_equal (firstn (List.length s))) in Ep. rewrite !firstn_firstn, app_length, Nat.min_l in Ep by lia. now rewrite <- Ep. }
    assert (forall (f : nat -> rframe -> rframe) (x : option rframe) n, match x with Some fr => (fun n c => Some (f n c)) n fr | None => None end = option_map (f n) x) as HM by (now intros f [fr|] n).
    induction m as [m name|over c IH w|over how asc c IH w|p cond base incl c IH w|d over c IH w|op a IHa b IHb name w|op x c IH name w|op c IH x name w];
      intros s e df R q Hs HR Hq; cbn [op_compute] in HR; cbn zeta in HR.
    - injection HR as <-. now apply (compute_keys m s e).
    - rewrite <- HM in HR. eapply (HO _ c over w s e df R q); [|apply no_slices_distribution|exact Hs|exact HR|exact Hq]. intros; eapply IH; eauto.
    - pose (S := fun n => match how with CumOrder o => ByOrder (if asc then o else rev o) | _ => BySort (sort_rows (leb how asc) n) end).
      assert (option_map ((fun n => cumulative_distribution n (S n)) (List.length (s ++ e))) (op_compute parse psort c ((s ++ e) ++ over) (filter (pfilters parse w) df)) = Some R) as HR' by exact HR. rewrite <- HM in HR'.
      eapply (HO _ c over w s e df R q); [|apply (no_slices_cumdist S)|exact Hs|exact HR'|exact Hq].
      + intros; eapply IH; eauto.
      + intros n f l q' E H. unfold S in E. destruct how; try discriminate; injection E as <-; now apply sort_rows_In in H.
    - eapply (HO (fun n fr => (if p then percent_change else absolute_change) n (List.length cond) base incl fr) c cond w s e df R q); [| |exact Hs|exact HR|exact Hq].
      + intros; eapply IH; eauto.
      + destruct p; apply no_slices_compare.
    - rewrite <- (HM (fun n => match d with HHI => hhi n | Entropy => entropy n | TopK k => top_k k n | Nxx s => nxx s n end)) in HR.
      eapply (HO (fun n c => Some (match d with HHI => hhi n | Entropy => entropy n | TopK k => top_k k n | Nxx s => nxx s n end c)) c over w s e df R q); [| |exact Hs|exact HR|exact Hq].
      + intros; eapply IH; eauto.
      + destruct d; [apply no_slices_agg|apply no_slices_agg|apply no_slices_top_k|apply no_slices_agg].
    - destruct (op_compute parse psort a (s ++ e) _) as [A|] eqn:Ea; [|discriminate]. destruct (op_compute parse psort b (s ++ e) _) as [B|] eqn:Eb; [|discriminate]. injection HR as <-. apply (HF s w).
      unfold align_levels in Hq. destruct (Nat.compare _ _).
      + unfold M_SqlLeaf.align in Hq. apply in_map_iff in Hq as (q' & <- & Hq). cbn [fst]. apply sort_uniq_In, in_app_or in Hq as [Hq|Hq]; apply in_map_iff in Hq as (q'' & <- & Hq); [exact (IHa s e _ _ _ Hs Ea Hq)|exact (IHb s e _ _ _ Hs Eb Hq)].
      + apply in_map_iff in Hq as (q' & <- & Hq). exact (IHb s e _ _ _ Hs Eb Hq).
      + apply in_map_iff in Hq as (q' & <- & Hq). exact (IHa s e _ _ _ Hs Ea Hq).
    - destruct (op_compute parse psort c (s ++ e) _) as [F|] eqn:E; [|discriminate]. injection HR as <-. apply (HF s w). apply in_map_iff in Hq as (q' & <- & Hq). exact (IH s e _ _ _ Hs E Hq).
    - destruct (op_compute parse psort c (s ++ e) _) as [F|] eqn:E; [|discriminate]. injection HR as <-. apply (HF s w). apply in_map_iff in Hq as (q' & <- & Hq). exact (IH s e _ _ _ Hs E Hq).
  Qed.
End Tree.
