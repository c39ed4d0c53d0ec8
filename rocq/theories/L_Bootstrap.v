(** Lemmas for C37. *)
From Coq Require Import Reals List Bool String Arith Lia Lra Permutation Sorting.Sorted.
From Verif Require Import M_Num M_Frame M_Ops M_Slices M_Leaf M_Jackknife M_Bootstrap S_Ops S_Slices S_Jackknife S_Bootstrap L_Frame L_Slices L_Jackknife L_Jackknife3.
Import ListNotations.
Open Scope list_scope.
Open Scope nat_scope.

(** *** The aggregations *)
Lemma xmax2_nan_l y : xmax2 NaN y = y. Proof. reflexivity. Qed.
Lemma xmax2_nan_r y : xmax2 y NaN = y. Proof. now destruct y. Qed.
Lemma xmin2_nan_r y : xmin2 y NaN = y. Proof. now destruct y. Qed.
Ltac rcases := repeat (simpl in *; match goal with
  | |- context [Rlt_dec ?a ?b] => destruct (Rlt_dec a b)
  | H : context [Rlt_dec ?a ?b] |- _ => destruct (Rlt_dec a b)
  end); simpl in *; try reflexivity; try congruence; try (exfalso; lra); try (f_equal; lra).
Lemma xmax2_comm x y : xmax2 x y = xmax2 y x.
Proof. destruct x, y; unfold xmax2; simpl; rcases. Qed.
Lemma xmax2_assoc x y z : xmax2 x (xmax2 y z) = xmax2 (xmax2 x y) z.
Proof. destruct x, y, z; unfold xmax2; simpl; rcases. Qed.
Lemma xmin2_comm x y : xmin2 x y = xmin2 y x.
Proof. destruct x, y; unfold xmin2; simpl; rcases. Qed.
Lemma xmin2_assoc x y z : xmin2 x (xmin2 y z) = xmin2 (xmin2 x y) z.
Proof. destruct x, y, z; unfold xmin2; simpl; rcases. Qed.
Lemma xadd_0_l x : xadd (Fin 0) x = x. Proof. destruct x; simpl; try reflexivity. f_equal; lra. Qed.
Lemma xadd_0_r x : xadd x (Fin 0) = x. Proof. rewrite xadd_comm. apply xadd_0_l. Qed.
Lemma xsum_app a b : xsum (a ++ b) = xadd (xsum a) (xsum b).
Proof. induction a as [|x a IH]; simpl app. - now rewrite xadd_0_l. - rewrite !xsum_cons, IH. destruct (is_nan x); auto. apply xadd_assoc. Qed.

(** What the preaggregated metric applies to the column. *)
Definition outer (k : pkind) (l : list num) : num :=
  match k with KMax => fold_right xmax2 NaN l | KMin => fold_right xmin2 NaN l | _ => xsum l end.
Definition comb (k : pkind) : num -> num -> num := match k with KMax => xmax2 | KMin => xmin2 | _ => xadd end.
Lemma comb_comm k x y : comb k x y = comb k y x.
Proof. destruct k; simpl; auto using xadd_comm, xmax2_comm, xmin2_comm. Qed.
Lemma comb_assoc k x y z : comb k x (comb k y z) = comb k (comb k x y) z.
Proof. destruct k; simpl; auto using xadd_assoc, xmax2_assoc, xmin2_assoc. Qed.
Definition unit_of (k : pkind) : num := match k with KMax | KMin => NaN | _ => Fin 0 end.
Lemma comb_unit k x : comb k (unit_of k) x = x.
Proof. destruct k; [apply xadd_0_l|apply xadd_0_l|reflexivity|reflexivity]. Qed.
Lemma inner_nil k v : agg_of k v [] = unit_of k.
Proof. destruct k; reflexivity. Qed.
Lemma inner_app k v a b : agg_of k v (a ++ b) = comb k (agg_of k v a) (agg_of k v b).
Proof.
  destruct k; simpl; unfold agg_sum, agg_count, agg_max, agg_min, column; rewrite map_app.
  - apply xsum_app.
  - unfold count_present. rewrite filter_app, app_length, plus_INR. reflexivity.
  - induction (List.map (fun r => val r v) a) as [|x l IH]; simpl; auto. rewrite IH. apply xmax2_assoc.
  - induction (List.map (fun r => val r v) a) as [|x l IH]; simpl; auto. rewrite IH. apply xmin2_assoc.
Qed.
Lemma inner_perm k v a b : Permutation a b -> agg_of k v a = agg_of k v b.
Proof.
  induction 1 as [|x a b H IH|x y a|a b c H1 IH1 H2 IH2]; auto.
  - change (x :: a) with ([x] ++ a). change (x :: b) with ([x] ++ b). now rewrite !inner_app, IH.
  - change (y :: x :: a) with ([y] ++ [x] ++ a). change (x :: y :: a) with ([x] ++ [y] ++ a).
    rewrite !inner_app, !comb_assoc. f_equal. apply comb_comm.
  - congruence.
Qed.
Definition good (k : pkind) (v : string) (rows : table) : Prop := k = KSum -> Forall (fun r => no_inf (val r v)) rows.
Lemma inner_not_nan k v rows : good k v rows -> k <> KMax -> k <> KMin -> is_nan (agg_of k v rows) = false.
Proof.
  intros G H1 H2. destruct k; try congruence; simpl; auto.
  unfold agg_sum. rewrite xsum_finite; auto. unfold column. apply Forall_map. now apply G.
Qed.
Lemma outer_step k v rows c cs : good k v rows -> (c = agg_of k v rows \/ rows = [] /\ c = NaN) ->
  outer k (c :: cs) = comb k (agg_of k v rows) (outer k cs).
Proof.
  intros G [->|[-> ->]].
  - destruct k; try reflexivity; cbn [outer comb]; rewrite xsum_cons, inner_not_nan; auto; discriminate.
  - rewrite inner_nil, comb_unit. destruct k; reflexivity.
Qed.
Lemma outer_cells {A} k v (cell : A -> num) (rows : A -> table) l :
  (forall K, In K l -> good k v (rows K) /\ (cell K = agg_of k v (rows K) \/ rows K = [] /\ cell K = NaN)) ->
  outer k (List.map cell l) = agg_of k v (flat_map rows l).
Proof.
  induction l as [|K l IH]; intros H.
  - simpl List.map. simpl flat_map. rewrite inner_nil. destruct k; reflexivity.
  - simpl List.map. simpl flat_map. rewrite inner_app, (outer_step k v (rows K)); try apply (H K); simpl; auto.
    f_equal. apply IH. intros K' HK'. apply H. simpl; auto.
Qed.

(** *** Keys of preaggregated rows *)
Lemma key_label_row cols r k c : row_key cols r = Some k -> In c cols -> key_label cols k c = lab r c.
Proof.
  revert k. induction cols as [|c' cols IH]; intros k H Hin; [destruct Hin|].
  simpl in H. destruct (lab r c') eqn:L; [|discriminate]. destruct (row_key cols r) eqn:R; [|discriminate].
  injection H as <-. simpl. destruct (string_dec c' c) as [->|N]; auto.
  apply IH; auto. destruct Hin; congruence.
Qed.
Lemma row_key_ext cols r r' : (forall c, In c cols -> lab r c = lab r' c) -> row_key cols r = row_key cols r'.
Proof.
  induction cols as [|c cols IH]; intros H; simpl; auto.
  rewrite (H c), IH; simpl; auto. intros c' Hc'. apply H. simpl; auto.
Qed.
Lemma pre_row_key keep ls all df cols r K : row_key all r = Some K -> incl cols all ->
  row_key cols (pre_row keep ls all df K) = row_key cols r.
Proof. intros H I. apply row_key_ext. intros c Hc. simpl. apply key_label_row with (1 := H). auto. Qed.
Lemma slice_flat_map {A} cols q (f : A -> table) l : slice cols q (flat_map f l) = flat_map (fun x => slice cols q (f x)) l.
Proof. unfold slice. induction l as [|x l IH]; simpl; auto. now rewrite filter_app, IH. Qed.
Lemma filter_flat_map {A B} (p : B -> bool) (f : A -> list B) l : filter p (flat_map f l) = flat_map (fun x => filter p (f x)) l.
Proof. induction l as [|x l IH]; simpl; auto. now rewrite filter_app, IH. Qed.
Lemma filter_map_comm {A B} (p : B -> bool) (f : A -> B) l : filter p (List.map f l) = List.map f (filter (fun x => p (f x)) l).
Proof. induction l as [|x l IH]; simpl; auto. destruct (p (f x)); simpl; now rewrite IH. Qed.
Lemma flat_map_flat_map {A B C} (f : A -> list B) (g : B -> list C) l : flat_map g (flat_map f l) = flat_map (fun x => flat_map g (f x)) l.
Proof. induction l as [|x l IH]; simpl; auto. now rewrite flat_map_app, IH. Qed.
Lemma flat_map_map {A B C} (f : A -> B) (g : B -> list C) l : flat_map g (List.map f l) = flat_map (fun x => g (f x)) l.
Proof. induction l as [|x l IH]; simpl; auto. now rewrite IH. Qed.
Lemma perm_flat_map {A B} (f g : A -> list B) l : (forall x, In x l -> Permutation (f x) (g x)) -> Permutation (flat_map f l) (flat_map g l).
Proof. induction l as [|x l IH]; simpl; intros H; auto. apply Permutation_app; auto. Qed.

(** Grouping by key is a partition. *)
Lemma flat_map_slice_cons all r K0 l Ks : NoDup Ks -> row_key all r = Some K0 ->
  Permutation (flat_map (fun K => slice all K (r :: l)) Ks)
              ((if in_dec (list_eq_dec string_dec) K0 Ks then [r] else []) ++ flat_map (fun K => slice all K l) Ks).
Proof.
  intros ND HK. induction Ks as [|K Ks IH]; [reflexivity|].
  inversion ND as [|? ? Nin ND']; subst.
  assert (E : slice all K (r :: l) = (if list_eq_dec string_dec K0 K then [r] else []) ++ slice all K l).
  { unfold slice. simpl. unfold has_key at 1. rewrite HK. unfold key_eqb. destruct (list_eq_dec string_dec K0 K); reflexivity. }
  cbn [flat_map]. rewrite E.
  destruct (list_eq_dec string_dec K0 K) as [->|N].
  - destruct (in_dec (list_eq_dec string_dec) K (K :: Ks)) as [_|Q]; [|exfalso; apply Q; simpl; auto].
    assert (E2 : flat_map (fun K1 => slice all K1 (r :: l)) Ks = flat_map (fun K1 => slice all K1 l) Ks).
    { assert (HH : forall K1, In K1 Ks -> K1 <> K) by (intros K1 H1 ->; auto).
      clear -HH HK. induction Ks as [|K1 Ks IH]; auto. cbn [flat_map]. rewrite IH by (intros; apply HH; simpl; auto). f_equal.
      unfold slice. simpl. unfold has_key at 1. rewrite HK.
      destruct (key_eqb K K1) eqn:Q; auto. apply key_eqb_eq in Q. exfalso. apply (HH K1); simpl; auto. }
    rewrite E2. simpl. reflexivity.
  - cbn [app]. rewrite (IH ND').
    destruct (in_dec (list_eq_dec string_dec) K0 (K :: Ks)) as [I|I], (in_dec (list_eq_dec string_dec) K0 Ks) as [J|J]; cbn [app]; auto.
    + symmetry. apply Permutation_middle.
    + exfalso. destruct I; congruence.
    + exfalso. apply I. simpl; auto.
Qed.
Lemma partition_perm all (P : drow -> bool) (PK : list string -> bool) Ks l : NoDup Ks ->
  Forall (fun r => exists K, row_key all r = Some K /\ In K Ks /\ P r = PK K) l ->
  Permutation (flat_map (fun K => slice all K l) (filter PK Ks)) (filter P l).
Proof.
  intros ND. induction 1 as [|r l [K [H1 [H2 H3]]] Hl IH].
  - simpl. induction (filter PK Ks); simpl; auto.
  - rewrite (flat_map_slice_cons _ _ _ _ _ (NoDup_filter _ ND) H1). simpl filter.
    destruct (in_dec (list_eq_dec string_dec) K (filter PK Ks)) as [I|I].
    + apply filter_In in I. destruct I as [_ I]. rewrite H3, I. simpl. now constructor.
    + destruct (P r) eqn:Q; auto. exfalso. apply I. apply filter_In. now rewrite <- H3.
Qed.

Lemma keep_all_ext keep w w' r : (forall q, In q w <-> In q w') -> keep_all keep w r = keep_all keep w' r.
Proof.
  intros H. unfold keep_all. apply eq_true_iff_eq. rewrite !forallb_forall. split; intros F q Hq; apply F; now apply H.
Qed.
Lemma keep_all_app keep a b r : keep_all keep (a ++ b) r = keep_all keep a r && keep_all keep b r.
Proof. apply forallb_app. Qed.
Lemma keep_all_push keep a b r : keep_all keep (push a b) r = keep_all keep a r && keep_all keep b r.
Proof. rewrite <- keep_all_app. apply keep_all_ext. intros q. unfold push. apply nodup_In. Qed.

Section Pre.
Variables (keep : string -> drow -> bool) (ls : list pleaf) (s : list string) (u : string) (x : list string) (df : table).
Let all := s ++ u :: x.
Let su := s ++ [u].
Hypothesis labelled_rows : has_labels all df.
Hypothesis names : distinct_names ls.
Let pre := pre_df keep ls all df.
Let fdf w := filter (keep_all keep w) df.

Lemma all_nonempty : all <> []. Proof. unfold all. destruct s; discriminate. Qed.
Lemma su_incl : incl su all.
Proof. unfold su, all. intros c. rewrite !in_app_iff. simpl. intuition. Qed.
Lemma all_keys K : In K (group_keys all df) <-> exists r, In r df /\ row_key all r = Some K.
Proof. rewrite group_keys_In. split; [|intros]; auto. intros [[E _]|[_ H]]; auto. now destruct all_nonempty. right. split; auto. apply all_nonempty. Qed.
Lemma row_has_key r : In r df -> exists K, row_key all r = Some K /\ In K (group_keys all df).
Proof.
  intros H. destruct (row_key_total all r) as [K HK].
  - intros c Hc. unfold has_labels in labelled_rows. rewrite Forall_forall in labelled_rows. now apply labelled_rows.
  - exists K. split; auto. apply all_keys. eauto.
Qed.
Lemma NoDup_all : NoDup (group_keys all df).
Proof. apply ksorted_NoDup, group_keys_sorted. Qed.

Lemma leaf_frame_ext l l' cols d : pk l = pk l' -> pvar l = pvar l' -> (forall q, In q (pwhere l) <-> In q (pwhere l')) ->
  leaf_frame keep l cols d = leaf_frame keep l' cols d.
Proof. intros H1 H2 H3. unfold leaf_frame. rewrite H1, H2. f_equal. apply filter_ext. intros r. now apply keep_all_ext. Qed.
Lemma pre_value_cell l K : In l ls ->
  pre_value keep ls all df K (colname l) = agg_of (pk l) (pvar l) (slice all K (fdf (pwhere l))) \/
  slice all K (fdf (pwhere l)) = [] /\ pre_value keep ls all df K (colname l) = NaN.
Proof.
  intros Hl. unfold pre_value.
  destruct (find _ ls) as [l'|] eqn:F.
  - apply find_some in F. destruct F as [F1 F2]. destruct (string_dec (colname l') (colname l)) as [E|]; [|discriminate].
    destruct (names l' l F1 Hl E) as [N1 [N2 N3]].
    rewrite (leaf_frame_ext l' l) by auto. unfold leaf_frame, compute_leaf.
    fold (fdf (pwhere l)).
    destruct (in_dec (list_eq_dec string_dec) K (group_keys all (fdf (pwhere l)))) as [I|I].
    + left. now apply (lookup_map (fun k => agg_of (pk l) (pvar l) (slice all k (fdf (pwhere l))))). 
    + right. split.
      * destruct (slice all K (fdf (pwhere l))) eqn:E2; auto. exfalso. apply I. apply group_keys_In. right.
        split; [apply all_nonempty|]. apply slice_nonempty. congruence.
      * apply lookup_None. rewrite map_map, map_id. exact I.
  - exfalso. apply find_none with (x := l) in F; auto. destruct (string_dec (colname l) (colname l)); congruence.
Qed.

(** The preaggregated rows of a unit that fall in slice [q], as keys. *)
Let pick_keys cols q k := filter (fun K => has_key su k (pre_row keep ls all df K) && has_key cols q (pre_row keep ls all df K)) (group_keys all df).
Lemma pre_slice cols q k : slice cols q (slice su k pre) = List.map (pre_row keep ls all df) (pick_keys cols q k).
Proof.
  unfold pre, pre_df, slice, pick_keys. rewrite filter_map_comm, filter_map_comm, filter_filter. reflexivity.
Qed.
Lemma unit_perm cols q k w : incl cols all ->
  Permutation (flat_map (fun K => slice all K (fdf w)) (pick_keys cols q k)) (slice cols q (filter (keep_all keep w) (slice su k df))).
Proof.
  intros I. unfold pick_keys.
  rewrite (partition_perm all (fun r => has_key su k r && has_key cols q r)).
  - unfold slice, fdf. rewrite !filter_filter.
    erewrite filter_ext; [reflexivity|]. intros r. simpl.
    destruct (keep_all keep w r), (has_key su k r); simpl; auto. all: now rewrite ?andb_true_r, ?andb_false_r.
  - apply NoDup_all.
  - apply Forall_forall. intros r Hr. apply filter_In in Hr. destruct Hr as [Hr _].
    destruct (row_has_key r Hr) as [K [HK HI]]. exists K. repeat split; auto.
    unfold has_key. rewrite !(pre_row_key keep ls all df _ _ _ HK); auto. apply su_incl.
Qed.

Lemma leaf_value_pre l cols q ks : In l ls -> incl cols all -> good (pk l) (pvar l) df ->
  pre_agg l (slice cols q (rows_of_units su ks pre)) =
  agg_of (pk l) (pvar l) (slice cols q (filter (keep_all keep (pwhere l)) (rows_of_units su ks df))).
Proof.
  intros Hl I G.
  assert (E : pre_agg l (slice cols q (rows_of_units su ks pre)) =
              outer (pk l) (List.map (fun K => pre_value keep ls all df K (colname l)) (flat_map (pick_keys cols q) ks))).
  { assert (E : column (colname l) (slice cols q (rows_of_units su ks pre)) =
              List.map (fun K => pre_value keep ls all df K (colname l)) (flat_map (pick_keys cols q) ks)).
    { unfold rows_of_units. rewrite slice_flat_map. unfold column.
      erewrite flat_map_ext by (intros k; apply pre_slice).
      induction ks as [|k ks IH]; simpl; auto. rewrite !map_app, IH. f_equal. now rewrite map_map. }
    unfold pre_agg. destruct (pk l); unfold agg_max, agg_min, agg_sum; rewrite E; reflexivity. }
  rewrite E, (outer_cells (pk l) (pvar l) _ (fun K => slice all K (fdf (pwhere l)))).
  - apply inner_perm. rewrite flat_map_flat_map. unfold rows_of_units. rewrite filter_flat_map, slice_flat_map.
    apply perm_flat_map. intros k _. now apply unit_perm.
  - intros K _. split; [|now apply pre_value_cell].
    intros HS. specialize (G HS). rewrite Forall_forall in *. intros r Hr. apply G.
    apply slice_In in Hr. destruct Hr as [Hr _]. apply filter_In in Hr. tauto.
Qed.

Lemma leaf_keys_pre w cols ks : incl cols all -> let sample := rows_of_units su ks df in
  (cols = [] \/ forall r, In r sample -> exists r', In r' (filter (keep_all keep w) sample) /\ row_key cols r' = row_key cols r) ->
  group_keys cols (rows_of_units su ks pre) = group_keys cols (filter (keep_all keep w) sample).
Proof.
  intros I sample C.
  destruct cols as [|c cols]; [reflexivity|]. destruct C as [C|C]; [discriminate|]. remember (c :: cols) as cs eqn:Ecs.
  apply ksorted_ext; try apply group_keys_sorted. intros q.
  rewrite !group_keys_In.
  assert (N : cs <> []) by (subst; discriminate).
  split; intros [[H _]|[_ [r [H1 H2]]]]; try contradiction; right; split; auto.
  - unfold rows_of_units in H1. apply in_flat_map in H1. destruct H1 as [k [Hk Hr]].
    apply slice_In in Hr. destruct Hr as [Hr Hr2]. unfold pre, pre_df in Hr. apply in_map_iff in Hr. destruct Hr as [K [<- HK]].
    apply all_keys in HK. destruct HK as [r0 [Hr0 HK]].
    rewrite (pre_row_key _ _ _ _ _ _ _ HK) in H2; auto. rewrite (pre_row_key _ _ _ _ _ _ _ HK) in Hr2; [|apply su_incl].
    destruct (C r0) as [r' [Hr' E']].
    { apply in_flat_map. exists k. split; auto. now apply slice_In. }
    exists r'. split; auto. congruence.
  - apply filter_In in H1. destruct H1 as [H1 _]. unfold sample, rows_of_units in H1. apply in_flat_map in H1. destruct H1 as [k [Hk Hr]].
    apply slice_In in Hr. destruct Hr as [Hr Hr2]. destruct (row_has_key r Hr) as [K [HK HI]].
    exists (pre_row keep ls all df K). split.
    + apply in_flat_map. exists k. split; auto. apply slice_In. split.
      * unfold pre, pre_df. now apply in_map.
      * rewrite (pre_row_key _ _ _ _ _ _ _ HK); auto. apply su_incl.
    + rewrite (pre_row_key _ _ _ _ _ _ _ HK); auto.
Qed.
Lemma leaf_pre l cols ks : In l ls -> incl cols all -> good (pk l) (pvar l) df -> let sample := rows_of_units su ks df in
  (cols = [] \/ forall r, In r sample -> exists r', In r' (filter (keep_all keep (pwhere l)) sample) /\ row_key cols r' = row_key cols r) ->
  compute_leaf (pre_agg l) cols (rows_of_units su ks pre) =
  compute_leaf (agg_of (pk l) (pvar l)) cols (filter (keep_all keep (pwhere l)) sample).
Proof.
  intros Hl I G sample C. unfold compute_leaf. rewrite (leaf_keys_pre (pwhere l)); auto.
  apply map_ext. intros q. f_equal. now apply leaf_value_pre.
Qed.

Lemma tree_pre t : forall W p cols ks, let sample := rows_of_units su ks df in
  incl (pushed_leaves W t) ls -> incl (cols ++ extra_columns t) all -> summable t df ->
  (forall r, In r df -> p r = keep_all keep W r) ->
  no_slice_emptied keep t cols (filter p sample) sample ->
  compute_on (pre_tree W t) cols (rows_of_units su ks pre) =
  compute_on (plain_tree keep t) cols (filter p sample).
Proof.
  induction t as [k v w1|w1 t IH|f t IH|f a IHa b IHb|extra idx op t IH]; intros W p cols ks sample Hl HI HG HW HC;
  assert (Hs : incl sample df) by (intros r Hr; apply in_flat_map in Hr; destruct Hr as [k0 [_ Hr]]; apply slice_In in Hr; tauto).
  - simpl. set (l := PLeaf k v (push W w1)).
    assert (Hin : In l ls) by (apply Hl; simpl; auto).
    assert (F : filter (keep_all keep w1) (filter p sample) = filter (keep_all keep (pwhere l)) sample).
    { rewrite filter_filter. apply filter_ext_in'. intros r Hr. unfold l. simpl pwhere. rewrite keep_all_push, HW; auto. }
    rewrite F. f_equal. apply (leaf_pre l); auto.
    + intros c Hc. apply HI. apply in_or_app. auto.
    + intros Hk. simpl in Hk. subst k. simpl in HG. exact HG.
    + simpl in HC. destruct HC as [HC|HC]; auto. right. intros r Hr. destruct (HC r Hr) as [r' [H1 [H2 H3]]].
      exists r'. split; auto. fold sample. rewrite <- F. apply filter_In. auto.
  - simpl in *.
    assert (E : filter (keep_all keep w1) (filter p sample) = filter (fun r => p r && keep_all keep w1 r) sample) by apply filter_filter.
    rewrite E in *. apply IH; auto. intros r Hr. now rewrite keep_all_push, HW.
  - simpl in *. rewrite (IH W p); auto.
  - simpl in *. destruct HG, HC.
    assert (L : forall t W, levels (pre_tree W t) = levels (plain_tree keep t)).
    { clear. induction t; intros W; simpl; auto. now rewrite IHt. }
    rewrite !L. rewrite (IHa W p), (IHb W p); auto.
    + intros l Hl'. apply Hl. apply in_or_app; auto.
    + intros c Hc. apply HI. rewrite !in_app_iff in *. tauto.
    + intros l Hl'. apply Hl. apply in_or_app; auto.
    + intros c Hc. apply HI. rewrite !in_app_iff in *. tauto.
  - simpl in *. rewrite (IH W p); auto. intros c Hc. apply HI. rewrite !in_app_iff in *. tauto.
Qed.
End Pre.

(** *** Drawing rows of the preaggregated data is drawing units *)
Lemma pick_map {A B} (f : A -> B) g d : pick (List.map f g) d = List.map f (pick g d).
Proof. unfold pick. induction d as [|i d IH]; simpl; auto. rewrite map_app, <- IH, nth_error_map. destruct (nth_error g i); reflexivity. Qed.
Lemma sample_groups_map {A B} (f : A -> B) gs ds : sample_groups (List.map (List.map f) gs) ds = List.map f (sample_groups gs ds).
Proof. revert ds. induction gs as [|g gs IH]; intros [|d ds]; simpl; auto. now rewrite map_app, IH, pick_map. Qed.
Lemma pick_In {A} (g : list A) d y : In y (pick g d) -> In y g.
Proof. unfold pick. intros H. apply in_flat_map in H. destruct H as [i [_ H]]. destruct (nth_error g i) eqn:E; simpl in H; [|tauto].
  destruct H as [->|[]]. eapply nth_error_In; eauto. Qed.
Lemma sample_groups_In {A} (gs : list (list A)) ds y : In y (sample_groups gs ds) -> exists g, In g gs /\ In y g.
Proof.
  revert ds. induction gs as [|g gs IH]; intros [|d ds] H; simpl in *; try tauto.
  apply in_app_or in H. destruct H as [H|H]; eauto using pick_In. destruct (IH _ H) as [g' [H1 H2]]. eauto.
Qed.
Lemma map_flat_single {A B} (f : A -> B) l : flat_map (fun k => [f k]) l = List.map f l.
Proof. induction l; simpl; congruence. Qed.

Lemma firstn_row_key s u r K : row_key (s ++ [u]) r = Some K -> row_key s r = Some (firstn (List.length s) K).
Proof.
  rewrite row_key_app. destruct (row_key s r) as [k|] eqn:E; [|discriminate]. destruct (row_key [u] r); [|discriminate].
  intros H. injection H as <-. rewrite <- (row_key_length _ _ _ E), firstn_app, Nat.sub_diag, firstn_all, firstn_O, app_nil_r. reflexivity.
Qed.
Lemma row_sampling keep ls s u df ds : has_labels (s ++ [u]) df ->
  sample_by_row s (pre_df keep ls (s ++ [u]) df) ds = rows_of_units (s ++ [u]) (sample_groups (unit_groups s u df) ds) (pre_df keep ls (s ++ [u]) df).
Proof.
  intros HL. set (all := s ++ [u]) in *. set (f := pre_row keep ls all df).
  assert (KK : forall K, In K (group_keys all df) -> exists r, In r df /\ row_key all r = Some K).
  { intros K HK. apply group_keys_In in HK. destruct HK as [[E _]|[_ H]]; auto. unfold all in E. now destruct s. }
  assert (RK : forall cols K, incl cols all -> In K (group_keys all df) -> exists r, row_key all r = Some K /\ row_key cols (f K) = row_key cols r).
  { intros cols K Hi HK. destruct (KK K HK) as [r [Hr HrK]]. exists r. split; auto. now apply pre_row_key. }
  assert (S1 : forall K, In K (group_keys all df) -> slice all K (pre_df keep ls all df) = [f K]).
  { intros K HK. unfold pre_df, slice. rewrite filter_map_comm. fold f.
    assert (ND : NoDup (group_keys all df)) by apply ksorted_NoDup, group_keys_sorted.
    assert (E : filter (fun K' => has_key all K (f K')) (group_keys all df) = filter (fun K' => key_eqb K' K) (group_keys all df)).
    { apply filter_ext_in'. intros K' HK'. destruct (RK all K') as [r [H1 H2]]; auto. apply incl_refl.
      unfold has_key. rewrite H2, H1. reflexivity. }
    rewrite E. clear - ND HK. induction (group_keys all df) as [|K' l IH]; simpl in *; [tauto|].
    inversion ND; subst. destruct (key_eqb K' K) eqn:Q.
    - apply key_eqb_eq in Q. subst. simpl. f_equal.
      assert (E : filter (fun K' => key_eqb K' K) l = []); [|now rewrite E].
      clear -H1. induction l as [|y l IH]; simpl in *; auto. destruct (key_eqb y K) eqn:Q; [apply key_eqb_eq in Q; subst; tauto|]. apply IH. tauto.
    - apply IH; auto. destruct HK; auto. subst. now rewrite key_eqb_refl in Q. }
  assert (G : List.map (fun g => slice s g (pre_df keep ls all df)) (group_keys s (pre_df keep ls all df)) = List.map (List.map f) (unit_groups s u df)).
  { unfold unit_groups. fold all. rewrite map_map.
    assert (SI : incl s all) by (intros c Hc; apply in_or_app; auto).
    assert (E1 : forall g, slice s g (pre_df keep ls all df) = List.map f (filter (fun k => key_eqb (firstn (List.length s) k) g) (group_keys all df))).
    { intros g. unfold pre_df, slice. rewrite filter_map_comm. fold f. f_equal. apply filter_ext_in'. intros K HK.
      destruct (RK s K) as [r [H1 H2]]; auto. unfold has_key. rewrite H2, (firstn_row_key s u r K H1). reflexivity. }
    rewrite (map_ext _ _ E1). f_equal.
    destruct s as [|c s'] eqn:Es; [reflexivity|]. rewrite <- Es in *.
    assert (N : s <> []) by (subst; discriminate).
    apply ksorted_ext; [apply group_keys_sorted|apply sort_uniq_sorted|].
    intros g. rewrite group_keys_In, sort_uniq_In, in_map_iff. split.
    - intros [[E _]|[_ [r [H1 H2]]]]; [contradiction|]. unfold pre_df in H1. apply in_map_iff in H1. destruct H1 as [K [<- HK]].
      exists K. split; auto. fold f in H2. destruct (RK s K) as [r [H3 H4]]; auto. apply firstn_row_key in H3. rewrite Es in *. congruence.
    - intros [K [<- HK]]. right. split; auto. exists (f K). split. now apply in_map.
      destruct (RK s K) as [r [H3 H4]]; auto. apply firstn_row_key in H3. rewrite Es in *. congruence. }
  unfold sample_by_row. rewrite G, sample_groups_map.
  unfold rows_of_units. rewrite <- map_flat_single.
  assert (I : incl (sample_groups (unit_groups s u df) ds) (group_keys all df)).
  { intros K HK. apply sample_groups_In in HK. destruct HK as [g [Hg HK]]. unfold unit_groups in Hg. apply in_map_iff in Hg.
    destruct Hg as [g0 [<- _]]. apply filter_In in HK. tauto. }
  induction (sample_groups (unit_groups s u df) ds) as [|K l IH]; simpl; auto.
  rewrite S1 by (apply I; simpl; auto). simpl. f_equal. apply IH. intros K' HK'. apply I. simpl; auto.
Qed.
(** Units are the same in the preaggregated data. *)
Lemma unit_groups_pre keep ls s u x df : has_labels (s ++ u :: x) df ->
  unit_groups s u (pre_df keep ls (s ++ u :: x) df) = unit_groups s u df.
Proof.
  intros HL. unfold unit_groups.
  assert (E : group_keys (s ++ [u]) (pre_df keep ls (s ++ u :: x) df) = group_keys (s ++ [u]) df); [|now rewrite E].
  set (all := s ++ u :: x) in *.
  assert (SI : incl (s ++ [u]) all) by (unfold all; intros c; rewrite !in_app_iff; simpl; tauto).
  assert (N : s ++ [u] <> []) by (destruct s; discriminate).
  assert (NA : all <> []) by (unfold all; destruct s; discriminate).
  apply ksorted_ext; try apply group_keys_sorted. intros k. rewrite !group_keys_In.
  split; intros [[? _]|[_ [r [H1 H2]]]]; try contradiction; right; split; auto.
  - unfold pre_df in H1. apply in_map_iff in H1. destruct H1 as [K [<- HK]]. apply group_keys_In in HK. destruct HK as [[? _]|[_ [r [H3 H4]]]]; [contradiction|].
    exists r. split; auto. erewrite pre_row_key in H2; eauto.
  - destruct (row_key_total all r) as [K HK].
    { intros c Hc. unfold has_labels in HL. rewrite Forall_forall in HL. now apply HL. }
    exists (pre_row keep ls all df K). split.
    + unfold pre_df. apply in_map. apply group_keys_In. right. split; eauto.
    + erewrite pre_row_key; eauto.
Qed.

Theorem preaggregation keep ls s u x df w0 t ds :
  has_labels (s ++ u :: x) df -> distinct_names ls -> incl (pushed_leaves w0 t) ls -> incl (extra_columns t) x -> summable t df ->
  Forall (fun r => keep_all keep w0 r = true) df ->
  let sample := sample_by_unit s u df ds in
  no_slice_emptied keep t s sample sample ->
  compute_on (pre_tree w0 t) s (sample_preaggregated s u x (pre_df keep ls (s ++ u :: x) df) ds) = compute_on (plain_tree keep t) s sample.
Proof.
  intros HL HN Hl Hx HG HW sample HC.
  assert (E : sample_preaggregated s u x (pre_df keep ls (s ++ u :: x) df) ds =
              rows_of_units (s ++ [u]) (sample_groups (unit_groups s u df) ds) (pre_df keep ls (s ++ u :: x) df)).
  { unfold sample_preaggregated. destruct x as [|c x']; [now apply row_sampling|].
    unfold sample_by_unit. now rewrite unit_groups_pre. }
  rewrite E. assert (FT : filter (fun _ => true) sample = sample).
  { clear. induction sample; simpl; congruence. }
  pose proof (tree_pre keep ls s u x df HL HN t w0 (fun _ => true) s (sample_groups (unit_groups s u df) ds)) as T.
  cbn zeta in T. fold (sample_by_unit s u df ds) in T. fold sample in T. rewrite FT in T. apply T; auto.
  - intros c Hc. apply in_app_or in Hc. apply in_or_app. simpl. destruct Hc; auto.
  - intros r Hr. rewrite Forall_forall in HW. now rewrite HW.
Qed.
