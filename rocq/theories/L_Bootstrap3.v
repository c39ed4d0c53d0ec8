(** Lemmas for C38: Poisson weights. *)
From Coq Require Import Reals List Bool String Ascii Arith Lia Lra Permutation.
From Verif Require Import M_Num M_Frame M_Ops M_Slices M_Leaf M_Jackknife M_SqlText M_SqlFilter M_Bootstrap S_Ops S_Slices S_Jackknife S_Bootstrap L_Frame L_Slices L_Jackknife L_Jackknife3 L_Bootstrap L_Bootstrap2.
Import ListNotations.
Open Scope list_scope.
Open Scope nat_scope.

Lemma outer_app k a b : outer k (a ++ b) = comb k (outer k a) (outer k b).
Proof.
  destruct k; simpl; auto using xsum_app; induction a as [|x a IH]; simpl; auto; rewrite IH; auto using xmax2_assoc, xmin2_assoc.
Qed.
Lemma comb_idem_max x : xmax2 x x = x. Proof. destruct x; unfold xmax2; simpl; rcases. Qed.
Lemma comb_idem_min x : xmin2 x x = x. Proof. destruct x; unfold xmin2; simpl; rcases. Qed.
Definition summing (k : pkind) : bool := match k with KSum | KCount => true | _ => false end.
Lemma xsum_weigh w c : Forall no_inf c -> xsum (List.map (fun x => xmul x (Fin (INR w))) c) = Fin (INR w * Rsum (finite_values c)).
Proof.
  induction 1 as [|x c [H1 H2] _ IH]; simpl List.map.
  - simpl. f_equal. lra.
  - rewrite xsum_cons, IH. destruct x; simpl; try congruence. f_equal. lra.
Qed.
Lemma outer_repeat k w c : (summing k = true -> Forall no_inf c) -> w <> 0 ->
  outer k (List.map (fun x => if summing k then xmul x (Fin (INR w)) else x) c) = outer k (List.concat (repeat c w)).
Proof.
  intros NI W.
  destruct (summing k) eqn:S.
  - assert (E : forall l, outer k l = xsum l) by (destruct k; try discriminate; reflexivity). rewrite !E.
    rewrite xsum_weigh by auto. clear W. induction w as [|w IH].
    + simpl. f_equal. lra.
    + cbn [repeat List.concat]. rewrite xsum_app, <- IH, xsum_finite by auto. rewrite S_INR. simpl. f_equal. lra.
  - rewrite map_id. destruct w as [|w]; [congruence|]. clear W.
    induction w as [|w IH]; [simpl; now rewrite app_nil_r|].
    cbn [repeat List.concat] in *. rewrite outer_app, <- IH. destruct k; try discriminate; simpl; now rewrite ?comb_idem_max, ?comb_idem_min.
Qed.
Lemma pre_agg_outer l rows : pre_agg l rows = outer (pk l) (column (colname l) rows).
Proof. unfold pre_agg. destruct (pk l); reflexivity. Qed.
Lemma weigh_key cols w r : row_key cols (weigh_row w r) = row_key cols r.
Proof. apply row_key_ext. reflexivity. Qed.
Lemma slice_weigh cols q w d : slice cols q (List.map (weigh_row w) d) = List.map (weigh_row w) (slice cols q d).
Proof. unfold slice. rewrite filter_map_comm. f_equal. apply filter_ext. intros r. unfold has_key. now rewrite weigh_key. Qed.
Lemma slice_app cols q a b : slice cols q (a ++ b) = slice cols q a ++ slice cols q b.
Proof. apply filter_app. Qed.
Lemma rows_of_units_app cols a b df : rows_of_units cols (a ++ b) df = rows_of_units cols a df ++ rows_of_units cols b df.
Proof. apply flat_map_app. Qed.
Lemma rows_of_units_repeat cols k w df : rows_of_units cols (repeat k w) df = List.concat (repeat (slice cols k df) w).
Proof. unfold rows_of_units. induction w; simpl; congruence. Qed.
Lemma slice_concat_repeat cols q d w : slice cols q (List.concat (repeat d w)) = List.concat (repeat (slice cols q d) w).
Proof. induction w; simpl; auto. now rewrite slice_app, IHw. Qed.
Lemma column_concat_repeat v d w : column v (List.concat (repeat d w)) = List.concat (repeat (column v d) w).
Proof. induction w; simpl; auto. unfold column in *. now rewrite map_app, IHw. Qed.
Lemma column_app v a b : column v (a ++ b) = column v a ++ column v b. Proof. apply map_app. Qed.

Section Poisson.
Variables (keep : string -> drow -> bool) (ls : list pleaf) (s : list string) (u : string) (x : list string) (df : table).
Let all := s ++ u :: x.
Let su := s ++ [u].
Hypothesis labelled_rows : has_labels all df.
Hypothesis names : distinct_names ls.
Hypothesis letters : Forall (fun l => has_letter (pvar l)) ls.
Hypothesis sums : Forall (fun l => good (pk l) (pvar l) df) ls.
Let pre := pre_df keep ls all df.

Lemma pre_no_inf l : In l ls -> summing (pk l) = true -> Forall (fun r => no_inf (val r (colname l))) pre.
Proof.
  intros Hl S. apply Forall_forall. intros r Hr. unfold pre, pre_df in Hr. apply in_map_iff in Hr. destruct Hr as [K [<- _]]. simpl val.
  rewrite Forall_forall in sums. pose proof (sums l Hl) as G.
  destruct (pre_value_cell keep ls s u x df labelled_rows names l K Hl) as [E|[_ E]]; fold all in E; rewrite E; [|split; discriminate].
  set (rows := slice all K (filter (keep_all keep (pwhere l)) df)).
  destruct (pk l) eqn:P; try discriminate.
  - simpl. unfold agg_sum. rewrite xsum_finite; [split; discriminate|]. unfold column. apply Forall_map.
    specialize (G eq_refl). rewrite Forall_forall in *. intros r Hr. apply G. unfold rows in Hr. apply slice_In in Hr. destruct Hr as [Hr _].
    apply filter_In in Hr. tauto.
  - simpl. split; discriminate.
Qed.
Lemma weigh_value l ks ws cols q : In l ls ->
  pre_agg l (slice cols q (weigh_units su ks ws pre)) = pre_agg l (slice cols q (rows_of_units su (repeat_by ks ws) pre)).
Proof.
  intros Hl. rewrite !pre_agg_outer. revert ws. induction ks as [|k ks IH]; intros [|w ws]; try reflexivity.
  cbn [weigh_units repeat_by]. rewrite rows_of_units_app, !slice_app, !column_app, !outer_app, IH. f_equal.
  rewrite rows_of_units_repeat, slice_concat_repeat, column_concat_repeat.
  destruct (Nat.eq_dec w 0) as [->|W]; [reflexivity|].
  replace (match w with 0 => [] | S _ => List.map (weigh_row w) (slice su k pre) end) with (List.map (weigh_row w) (slice su k pre)) by (destruct w; congruence).
  rewrite slice_weigh.
  set (d := slice cols q (slice su k pre)).
  rewrite <- outer_repeat; auto.
  - unfold column. rewrite !map_map. f_equal. apply map_ext. intros r. simpl.
    rewrite Forall_forall in letters. rewrite multiplied_colname by auto. unfold summing. destruct (pk l); reflexivity.
  - intros S. unfold column. apply Forall_map. pose proof (pre_no_inf l Hl S) as F. rewrite Forall_forall in *. intros r Hr. apply F.
    unfold d in Hr. apply slice_In in Hr. destruct Hr as [Hr _]. apply slice_In in Hr. tauto.
Qed.
Lemma weigh_keys ks ws cols : group_keys cols (weigh_units su ks ws pre) = group_keys cols (rows_of_units su (repeat_by ks ws) pre).
Proof.
  apply ksorted_ext; try apply group_keys_sorted. intros q. rewrite !group_keys_In.
  assert (H : (exists r, In r (weigh_units su ks ws pre) /\ row_key cols r = Some q) <-> (exists r, In r (rows_of_units su (repeat_by ks ws) pre) /\ row_key cols r = Some q)); [|tauto].
  revert ws. induction ks as [|k ks IH]; intros [|w ws]; cbn [weigh_units repeat_by]; try reflexivity.
  rewrite rows_of_units_app, rows_of_units_repeat.
  assert (A : forall a b, (exists r : drow, In r (a ++ b) /\ row_key cols r = Some q) <-> (exists r, In r a /\ row_key cols r = Some q) \/ (exists r, In r b /\ row_key cols r = Some q)).
  { intros a b. split; [intros [r [H1 H2]]; apply in_app_or in H1; destruct H1; [left|right]; exists r; auto|]. intros [[r [H1 H2]]|[r [H1 H2]]]; exists r; split; auto; apply in_or_app; auto. }
  rewrite !A, IH.
  assert (B : (exists r : drow, In r (match w with 0 => [] | S _ => List.map (weigh_row w) (slice su k pre) end) /\ row_key cols r = Some q) <->
              (exists r, In r (List.concat (repeat (slice su k pre) w)) /\ row_key cols r = Some q)); [|tauto].
  destruct w as [|w]; [simpl; tauto|]. split.
  - intros [r [H1 H2]]. apply in_map_iff in H1. destruct H1 as [r' [<- H1]]. rewrite weigh_key in H2. exists r'. split; auto.
    cbn [repeat List.concat]. apply in_or_app; auto.
  - intros [r [H1 H2]]. apply in_concat in H1. destruct H1 as [d [H1 H3]]. apply repeat_spec in H1. subst d.
    exists (weigh_row (S w) r). rewrite weigh_key. split; auto. now apply in_map.
Qed.
Lemma weigh_tree t : forall W cols ks ws, incl (pushed_leaves W t) ls ->
  compute_on (pre_tree W t) cols (weigh_units su ks ws pre) = compute_on (pre_tree W t) cols (rows_of_units su (repeat_by ks ws) pre).
Proof.
  induction t as [k v w1|w1 t IH|f t IH|f a IHa b IHb|extra idx op t IH]; intros W cols ks ws Hl; simpl in *.
  - f_equal. unfold compute_leaf. rewrite weigh_keys. apply map_ext. intros q. f_equal. apply weigh_value. apply Hl. simpl; auto.
  - auto.
  - now rewrite IH.
  - rewrite IHa, IHb; auto; intros l H; apply Hl; apply in_or_app; auto.
  - now rewrite IH.
Qed.
End Poisson.

Lemma summable_good t : forall df W, summable t df -> Forall (fun l => good (pk l) (pvar l) df) (pushed_leaves W t).
Proof.
  induction t as [k v w1|w1 t IH|f t IH|f a IHa b IHb|extra idx op t IH]; intros df W H; simpl in *; auto.
  - constructor; auto. intros E. simpl in *. subst. exact H.
  - destruct H. apply Forall_app. auto.
Qed.

(** Without extra columns each unit is one row. *)
Lemma repeat_by_map {A B} (f : A -> B) l ws : repeat_by (List.map f l) ws = List.map f (repeat_by l ws).
Proof.
  revert ws. induction l as [|y l IH]; intros [|w ws]; simpl; auto. rewrite map_app, IH. f_equal.
  clear. induction w; simpl; congruence.
Qed.
Lemma single_rows keep ls s u df K : let all := s ++ [u] in
  In K (group_keys all df) -> slice all K (pre_df keep ls all df) = [pre_row keep ls all df K].
Proof.
  intros all HK. set (f := pre_row keep ls all df).
  assert (ND : NoDup (group_keys all df)) by apply ksorted_NoDup, group_keys_sorted.
  unfold pre_df, slice. rewrite filter_map_comm. fold f.
  assert (E : filter (fun K' => has_key all K (f K')) (group_keys all df) = filter (fun K' => key_eqb K' K) (group_keys all df)).
  { apply filter_ext_in'. intros K' HK'. apply group_keys_In in HK'. destruct HK' as [[E _]|[_ [r [_ H1]]]]; [unfold all in E; now destruct s|].
    unfold has_key, f. rewrite (pre_row_key keep ls all df all r K' H1) by apply incl_refl. now rewrite H1. }
  rewrite E. clear - ND HK. induction (group_keys all df) as [|K' l IH]; simpl in *; [tauto|].
  inversion ND; subst. destruct (key_eqb K' K) eqn:Q.
  - apply key_eqb_eq in Q. subst. simpl. f_equal.
    assert (E : filter (fun K' => key_eqb K' K) l = []); [|now rewrite E].
    clear -H1. induction l as [|y l IH]; simpl in *; auto. destruct (key_eqb y K) eqn:Q; [apply key_eqb_eq in Q; subst; tauto|]. apply IH. tauto.
  - apply IH; auto. destruct HK; auto. subst. now rewrite key_eqb_refl in Q.
Qed.
Lemma repeat_by_In {A} (l : list A) ws y : In y (repeat_by l ws) -> In y l.
Proof.
  revert ws. induction l as [|z l IH]; intros [|w ws] H; simpl in *; try tauto.
  apply in_app_or in H. destruct H as [H|H]; [apply repeat_spec in H; auto|right; eauto].
Qed.
Lemma poisson_rows_units keep ls s u df ws : let all := s ++ [u] in
  poisson_rows (pre_df keep ls all df) ws = rows_of_units all (repeat_by (group_keys all df) ws) (pre_df keep ls all df).
Proof.
  intros all. unfold poisson_rows. unfold pre_df at 1. rewrite repeat_by_map. unfold rows_of_units. rewrite <- map_flat_single.
  assert (I : forall K, In K (repeat_by (group_keys all df) ws) -> In K (group_keys all df)) by (intros K; apply repeat_by_In).
  induction (repeat_by (group_keys all df) ws) as [|K l IH]; auto. cbn [flat_map].
  pose proof (single_rows keep ls s u df K (I K (or_introl eq_refl))) as SR. fold all in SR. cbn zeta in SR. rewrite SR. cbn [app]. f_equal. apply IH. intros K' HK'. apply I. simpl; auto.
Qed.

Theorem poisson_preaggregation keep s u x df w0 t ls ws :
  has_labels (s ++ u :: x) df -> distinct_names ls -> (forall l, In l ls <-> In l (pushed_leaves w0 t)) ->
  Forall (fun l => has_letter (pvar l)) ls -> incl (extra_columns t) x -> summable t df ->
  Forall (fun r => keep_all keep w0 r = true) df ->
  let sample := poisson_units s u df ws in
  no_slice_emptied keep t s sample sample ->
  compute_on (pre_tree w0 t) s (poisson_preaggregated s u x (pre_df keep ls (s ++ u :: x) df) ws) = compute_on (plain_tree keep t) s sample.
Proof.
  intros HL HN Hls HV Hx HG HW sample HC.
  assert (Hl : incl (pushed_leaves w0 t) ls) by (intros l; apply Hls).
  assert (GS : Forall (fun l => good (pk l) (pvar l) df) ls).
  { pose proof (summable_good t df w0 HG) as F. rewrite Forall_forall in *. intros l H. apply F. now apply Hls. }
  assert (UK : group_keys (s ++ [u]) (pre_df keep ls (s ++ u :: x) df) = group_keys (s ++ [u]) df).
  { set (all := s ++ u :: x) in *.
    assert (SI : incl (s ++ [u]) all) by (unfold all; intros c; rewrite !in_app_iff; simpl; tauto).
    assert (N : s ++ [u] <> []) by (destruct s; discriminate).
    assert (NA : all <> []) by (unfold all; destruct s; discriminate).
    apply ksorted_ext; try apply group_keys_sorted. intros k. rewrite !group_keys_In.
    split; intros [[? _]|[_ [r [H1 H2]]]]; try contradiction; right; split; auto.
    - unfold pre_df in H1. apply in_map_iff in H1. destruct H1 as [K [<- HK]]. apply group_keys_In in HK. destruct HK as [[? _]|[_ [r [H3 H4]]]]; [contradiction|].
      exists r. split; auto. erewrite pre_row_key in H2; eauto.
    - destruct (row_key_total all r) as [K HK].
      { intros c Hc. unfold has_labels in HL. rewrite Forall_forall in HL. now apply HL. }
      exists (pre_row keep ls all df K). split.
      + unfold pre_df. apply in_map. apply group_keys_In. right. split; eauto.
      + erewrite pre_row_key; eauto. }
  assert (E : compute_on (pre_tree w0 t) s (poisson_preaggregated s u x (pre_df keep ls (s ++ u :: x) df) ws) =
              compute_on (pre_tree w0 t) s (rows_of_units (s ++ [u]) (repeat_by (group_keys (s ++ [u]) df) ws) (pre_df keep ls (s ++ u :: x) df))).
  { unfold poisson_preaggregated. destruct x as [|c x'].
    - now rewrite poisson_rows_units.
    - rewrite UK. apply weigh_tree; auto. }
  rewrite E. assert (FT : filter (fun _ => true) sample = sample).
  { clear. induction sample; simpl; congruence. }
  pose proof (tree_pre keep ls s u x df HL HN t w0 (fun _ => true) s (repeat_by (group_keys (s ++ [u]) df) ws)) as T.
  cbn zeta in T. fold (poisson_units s u df ws) in T. fold sample in T. rewrite FT in T. apply T; auto.
  - intros c Hc. apply in_app_or in Hc. apply in_or_app. simpl. destruct Hc; auto.
  - intros r Hr. rewrite Forall_forall in HW. now rewrite HW.
Qed.
