(** Distribution and CumulativeDistribution. *)
From Coq Require Import Reals List Bool String Arith Lia Lra Permutation Sorted.
From Verif Require Import M_Num M_Frame M_Ops S_Ops L_Frame.
Import ListNotations.
Open Scope list_scope.
Open Scope R_scope.

Lemma group_In {A} n g (fr : list (key * A)) r : In r (group n g fr) <-> In r fr /\ firstn n (fst r) = g.
Proof.
  unfold group. rewrite filter_In. destruct (list_eq_dec string_dec (firstn n (fst r)) g); intuition congruence.
Qed.
Lemma group_cons {A} n g (r : key * A) fr :
  group n g (r :: fr) = if list_eq_dec string_dec (firstn n (fst r)) g then r :: group n g fr else group n g fr.
Proof. unfold group. cbn [filter]. destruct (list_eq_dec string_dec (firstn n (fst r)) g); reflexivity. Qed.
Lemma group_app {A} n g (a b : list (key * A)) : group n g (a ++ b) = group n g a ++ group n g b.
Proof. unfold group. apply filter_app. Qed.

(** a key-preserving map commutes with taking a group *)
Lemma group_map {A B} n g (f : key * A -> B) (fr : list (key * A)) :
  group n g (List.map (fun r => (fst r, f r)) fr) = List.map (fun r => (fst r, f r)) (group n g fr).
Proof.
  induction fr as [|r fr IH]; auto. simpl List.map at 1. rewrite !group_cons. simpl fst.
  destruct (list_eq_dec string_dec (firstn n (fst r)) g); simpl; now rewrite IH.
Qed.
Lemma level_total n fr r :
  In r fr -> lookup (firstn n (fst r)) (groupby_level n xsum fr) = xsum (vals n (firstn n (fst r)) fr).
Proof. intros H. rewrite groupby_lookup by now apply level_keys_here. reflexivity. Qed.

(** Every row of Distribution is the child's value over the total of its slice. *)
Lemma distribution_group n g children :
  group n g (distribution n children) =
  List.map (fun r => (fst r, xdiv (snd r) (xsum (vals n g children)))) (group n g children).
Proof.
  unfold distribution. rewrite group_map. apply map_ext_in. intros r Hr. apply group_In in Hr as [Hr <-].
  now rewrite level_total.
Qed.
Lemma distribution_vals n g children :
  vals n g (distribution n children) = List.map (fun x => xdiv x (xsum (vals n g children))) (vals n g children).
Proof. unfold vals at 1. rewrite distribution_group, map_map. unfold vals. now rewrite map_map. Qed.
Lemma finite_map_div l t : t <> 0 -> Forall no_inf l ->
  finite_values (List.map (fun x => xdiv x (Fin t)) l) = List.map (fun x => x / t) (finite_values l).
Proof.
  intros Ht. induction 1 as [|x l [H1 H2] _ IH]; simpl; auto.
  destruct x; simpl; try congruence. destruct (Req_EM_T t 0); [congruence|]. simpl. now rewrite IH.
Qed.
Lemma no_inf_div l t : t <> 0 -> Forall no_inf l -> Forall no_inf (List.map (fun x => xdiv x (Fin t)) l).
Proof.
  intros Ht H. apply Forall_map. eapply Forall_impl; [|exact H]. intros x [H1 H2].
  destruct x; simpl; try congruence; try (destruct (Req_EM_T t 0); [congruence|]); split; discriminate.
Qed.
Lemma distribution_nums n g children :
  finite_slice n g children -> total n g children <> 0 ->
  nums n g (distribution n children) = shares n g children.
Proof.
  intros Hf Ht. unfold nums at 1. rewrite distribution_vals, (xsum_finite _ Hf).
  unfold shares. now apply finite_map_div.
Qed.
Lemma distribution_finite n g children :
  finite_slice n g children -> total n g children <> 0 -> finite_slice n g (distribution n children).
Proof.
  intros Hf Ht. unfold finite_slice. rewrite distribution_vals, (xsum_finite _ Hf). now apply no_inf_div.
Qed.
Lemma Rsum_div l t : Rsum (List.map (fun x => x / t) l) = Rsum l / t.
Proof. unfold Rdiv. induction l; simpl; [ring|rewrite IHl; ring]. Qed.

Theorem distribution_sums_to_one n g children :
  finite_slice n g children -> total n g children <> 0 -> total n g (distribution n children) = 1.
Proof.
  intros Hf Ht. unfold total. rewrite distribution_nums by assumption. unfold shares. rewrite Rsum_div.
  now apply Rinv_r.
Qed.
Theorem distribution_rows n g children :
  finite_slice n g children -> total n g children <> 0 ->
  Forall2 (fun r r' => fst r' = fst r /\ (forall v, snd r = Fin v -> snd r' = Fin (v / total n g children)) /\
                       (snd r = NaN -> snd r' = NaN))
    (group n g children) (group n g (distribution n children)).
Proof.
  intros Hf Ht. rewrite distribution_group, (xsum_finite _ Hf).
  change (Rsum (finite_values (vals n g children))) with (total n g children).
  induction (group n g children) as [|r l IH]; simpl; constructor; auto. simpl. repeat split.
  - intros v ->. simpl. destruct (Req_EM_T (total n g children) 0); [contradiction|reflexivity].
  - intros ->. reflexivity.
Qed.
Theorem distribution_index n children : List.map fst (distribution n children) = List.map fst children.
Proof. unfold distribution. rewrite map_map. now apply map_ext. Qed.
Theorem distribution_zero_total n g children r :
  finite_slice n g children -> total n g children = 0 -> In r (group n g (distribution n children)) ->
  snd r = NaN \/ snd r = PInf \/ snd r = NInf.
Proof.
  intros Hf Ht. rewrite distribution_group, (xsum_finite _ Hf).
  change (Rsum (finite_values (vals n g children))) with (total n g children). rewrite Ht.
  rewrite in_map_iff. intros [r0 [<- _]]. simpl. destruct (snd r0) as [z| | |]; simpl; auto.
  - destruct (Req_EM_T 0 0); [|lra]. unfold inf_times, neg_inf. destruct (Req_EM_T z 0); auto.
    destruct (Rlt_dec z 0); simpl; auto.
  - destruct (Rlt_dec 0 0); simpl; auto.
  - destruct (Rlt_dec 0 0); simpl; auto.
Qed.

(** Cumulative sums *)
Fixpoint cums (acc : list num) (l : rframe) : rframe :=
  match l with
  | [] => []
  | r :: l' => (fst r, if is_nan (snd r) then NaN else xsum (acc ++ [snd r])) :: cums (acc ++ [snd r]) l'
  end.
Lemma cumsum_group n g seen l : group n g (cumsum_from n seen l) = cums (vals n g seen) (group n g l).
Proof.
  revert seen; induction l as [|r l IH]; intros seen; auto.
  simpl cumsum_from. rewrite !group_cons. simpl fst.
  destruct (list_eq_dec string_dec (firstn n (fst r)) g) as [E|E].
  - simpl. rewrite IH. f_equal.
    + f_equal. rewrite E. reflexivity.
    + unfold vals. rewrite group_app, map_app. f_equal. f_equal. unfold group. simpl.
      destruct (list_eq_dec string_dec (firstn n (fst r)) g); [reflexivity|contradiction].
  - rewrite IH. f_equal. unfold vals. rewrite group_app, map_app. unfold group at 2. simpl.
    destruct (list_eq_dec string_dec (firstn n (fst r)) g); [contradiction|]. simpl. now rewrite app_nil_r.
Qed.
Lemma cumsum_from_keys n seen l : List.map fst (cumsum_from n seen l) = List.map fst l.
Proof. revert seen; induction l; intros; simpl; auto. now rewrite IHl. Qed.
Lemma filter_all {A} (f : A -> bool) l : (forall x, In x l -> f x = true) -> filter f l = l.
Proof. induction l; simpl; intros H; auto. rewrite (H a) by auto. f_equal. auto. Qed.
Lemma filter_none {A} (f : A -> bool) l : (forall x, In x l -> f x = false) -> filter f l = [].
Proof. induction l; simpl; intros H; auto. rewrite (H a) by auto. auto. Qed.
Lemma group_flat_map {A} n g (ks : list key) (l : list (key * A)) : NoDup ks ->
  group n g (flat_map (fun k => group n k l) ks) = if in_dec (list_eq_dec string_dec) g ks then group n g l else [].
Proof.
  induction ks as [|k ks IH]; intros Hd; [reflexivity|]. inversion Hd; subst. simpl flat_map.
  rewrite group_app, IH by assumption.
  assert (group n g (group n k l) = if list_eq_dec string_dec g k then group n k l else []) as ->.
  { destruct (list_eq_dec string_dec g k) as [->|E].
    - unfold group at 1. apply filter_all. intros x Hx. apply group_In in Hx as [_ Hx].
      destruct (list_eq_dec string_dec (firstn n (fst x)) k); congruence.
    - unfold group at 1. apply filter_none. intros x Hx. apply group_In in Hx as [_ Hx].
      destruct (list_eq_dec string_dec (firstn n (fst x)) g); congruence. }
  destruct (list_eq_dec string_dec g k) as [->|E].
  - destruct (in_dec (list_eq_dec string_dec) k ks); [contradiction|]. rewrite app_nil_r.
    destruct (in_dec _ _ _) as [|H]; [reflexivity|]. destruct H. now left.
  - cbn [app]. destruct (in_dec (list_eq_dec string_dec) g ks) as [H|H];
    destruct (in_dec (list_eq_dec string_dec) g (k :: ks)) as [H'|H']; auto.
    + destruct H'. now right.
    + destruct H' as [H'|H']; [congruence|contradiction].
Qed.
Lemma sort_by_level_group n g l : group n g (sort_by_level n l) = group n g l.
Proof.
  unfold sort_by_level.
  change (fun g0 => filter (fun r => key_eqb (firstn n (fst r)) g0) l) with (fun g0 => group n g0 l).
  rewrite group_flat_map by apply ksorted_NoDup, level_keys_sorted.
  destruct (in_dec _ _ _) as [H|H]; auto.
  destruct (group n g l) as [|r l'] eqn:E; auto. destruct H.
  assert (In r (group n g l)) as Hr by (rewrite E; now left). apply group_In in Hr as [Hr <-].
  now apply level_keys_here.
Qed.

(** the numbers in a cumulative sum *)
Lemma cums_keys acc l : List.map fst (cums acc l) = List.map fst l.
Proof. revert acc; induction l; intros; simpl; auto. now rewrite IHl. Qed.
Lemma cums_nth acc l i r : Forall no_inf acc -> Forall no_inf (List.map snd l) -> nth_error l i = Some r ->
  nth_error (cums acc l) i =
  Some (fst r, if is_nan (snd r) then NaN
               else Fin (Rsum (finite_values (acc ++ List.map snd (firstn (S i) l))))).
Proof.
  revert acc i; induction l as [|r0 l IH]; intros acc i Ha Hl; [destruct i; discriminate|].
  inversion Hl as [|? ? H0 Hl']; subst. destruct i as [|i]; simpl nth_error.
  - intros E; injection E as <-. simpl cums. do 2 f_equal. destruct (is_nan (snd r0)); auto.
    rewrite xsum_finite; [reflexivity|]. apply Forall_app. split; auto.
  - intros E. simpl cums. rewrite (IH (acc ++ [snd r0]) i) with (3 := E).
    + do 2 f_equal. destruct (is_nan (snd r)); auto. rewrite <- app_assoc. reflexivity.
    + apply Forall_app. split; auto.
    + auto.
Qed.
Lemma firstn_finite (l : list num) i : exists j, finite_values (firstn i l) = firstn j (finite_values l).
Proof.
  revert i; induction l as [|x l IH]; intros i; [exists O; now destruct i|].
  destruct i as [|i]; [exists O; reflexivity|]. simpl firstn. destruct (IH i) as [j Hj].
  destruct x; simpl; rewrite Hj; [exists (S j)|exists j|exists j|exists j]; reflexivity.
Qed.

(** numbers of a cumsum: prefix sums *)
Fixpoint prefix_sums (acc : R) (l : list R) : list R :=
  match l with [] => [] | x :: l' => (acc + x) :: prefix_sums (acc + x) l' end.
Lemma cums_nums acc l : Forall no_inf acc -> Forall no_inf (List.map snd l) ->
  finite_values (List.map snd (cums acc l)) =
  prefix_sums (Rsum (finite_values acc)) (finite_values (List.map snd l)).
Proof.
  revert acc; induction l as [|[k v] l IH]; intros acc Ha Hl; simpl; auto.
  inversion Hl as [|? ? H0 Hl']; subst. simpl in H0.
  assert (Forall no_inf (acc ++ [v])) as Ha' by (apply Forall_app; auto).
  destruct v; simpl; try (destruct H0; congruence).
  - rewrite xsum_finite by assumption. simpl. rewrite IH by assumption.
    rewrite finite_values_app, Rsum_app. simpl. now rewrite Rplus_0_r.
  - rewrite IH by assumption. rewrite finite_values_app, app_nil_r. reflexivity.
Qed.
Lemma prefix_sums_sorted acc l : Forall (fun x => 0 <= x) l ->
  StronglySorted Rle (prefix_sums acc l) /\ Forall (fun y => acc <= y) (prefix_sums acc l).
Proof.
  intros H; revert acc; induction H as [|x l Hx Hl IH]; intros acc; simpl; [split; constructor|].
  destruct (IH (acc + x)) as [H1 H2]. split; constructor; auto; [lra|].
  eapply Forall_impl; [|exact H2]. simpl. intros; lra.
Qed.
Lemma prefix_sums_last acc l d : l <> [] -> last (prefix_sums acc l) d = acc + Rsum l.
Proof.
  revert acc; induction l as [|x l IH]; intros acc H; [congruence|]. destruct l as [|y l].
  - simpl. ring.
  - change (last (prefix_sums (acc + x) (y :: l)) d = acc + Rsum (x :: y :: l)).
    rewrite IH by discriminate. simpl. ring.
Qed.

Definition ordered_rows n s children :=
  match s with ByOrder o => reindex_order n o (distribution n children) | BySort f => f (distribution n children) end.
Lemma cumdist_group n s g children :
  group n g (cumulative_distribution n s children) = cums [] (group n g (ordered_rows n s children)).
Proof.
  unfold cumulative_distribution. rewrite sort_by_level_group. unfold group_cumsum. rewrite cumsum_group.
  destruct s; reflexivity.
Qed.
Lemma finite_values_perm l l' : Permutation l l' -> Permutation (finite_values l) (finite_values l').
Proof.
  induction 1; simpl; auto.
  - destruct x; auto.
  - destruct x, y; auto. constructor.
  - etransitivity; eauto.
Qed.
Lemma Rsum_perm l l' : Permutation l l' -> Rsum l = Rsum l'.
Proof. induction 1; simpl; lra. Qed.
Lemma group_perm {A} n g (l l' : list (key * A)) : Permutation l l' -> Permutation (group n g l) (group n g l').
Proof.
  intros H; induction H; auto.
  - rewrite !group_cons. destruct (list_eq_dec _ _ _); auto.
  - rewrite !group_cons. destruct (list_eq_dec _ (firstn n (fst x)) g), (list_eq_dec _ (firstn n (fst y)) g); auto. constructor.
  - etransitivity; eauto.
Qed.
Lemma vals_perm n g l l' : Permutation l l' -> Permutation (vals n g l) (vals n g l').
Proof. intros H. unfold vals. now apply Permutation_map, group_perm. Qed.

(** What is in the cumulative result, for any list [o] of rows of the distribution. *)
Lemma cums_spec n g o children :
  nonneg_slice n g children -> Permutation (finite_values (List.map snd o)) (shares n g children) ->
  Forall no_inf (List.map snd o) ->
  StronglySorted Rle (finite_values (List.map snd (cums [] o))) /\
  last (finite_values (List.map snd (cums [] o))) 0 = 1.
Proof.
  intros (Hf & Hn & Ht) Hp Ho. rewrite cums_nums by (auto; constructor). simpl.
  assert (Rsum (finite_values (List.map snd o)) = 1) as H1.
  { rewrite (Rsum_perm _ _ Hp). unfold shares. rewrite Rsum_div. apply Rinv_r. lra. }
  split.
  - apply prefix_sums_sorted. apply Forall_forall. intros x Hx.
    eapply Permutation_in in Hx; [|exact Hp]. unfold shares in Hx. apply in_map_iff in Hx as [y [<- Hy]].
    rewrite Forall_forall in Hn. specialize (Hn _ Hy). unfold Rdiv. apply Rmult_le_pos; auto.
    left. now apply Rinv_0_lt_compat.
  - rewrite prefix_sums_last; [lra|]. intros E. rewrite E in H1. simpl in H1. lra.
Qed.

(** reindex(order): the rows in the order, if every label occurs in it once *)
Lemma reindex_perm n order fr :
  NoDup order -> (forall r, In r fr -> is_nan (snd r) = false -> exists o, In o order /\ firstn 1 (skipn n (fst r)) = [o]) ->
  Permutation (reindex_order n order fr) (filter (fun r => negb (is_nan (snd r))) fr).
Proof.
  intros Hd. unfold reindex_order. induction fr as [|r fr IH]; intros H.
  - assert (flat_map (fun _ : string => @nil (key * num)) order = []) as E by (clear; induction order; auto).
    simpl. rewrite E. reflexivity.
  - assert (Permutation (flat_map (fun o => filter (fun r0 => key_eqb (firstn 1 (skipn n (fst r0))) [o]) (r :: fr)) order)
      (flat_map (fun o => if key_eqb (firstn 1 (skipn n (fst r))) [o] then [r] else []) order ++
       flat_map (fun o => filter (fun r0 => key_eqb (firstn 1 (skipn n (fst r0))) [o]) fr) order)) as HP.
    { clear. induction order as [|o order IH]; [reflexivity|]. cbn [flat_map filter].
      destruct (key_eqb (firstn 1 (skipn n (fst r))) [o]); cbn [app].
      - apply perm_skip. rewrite IH. rewrite !app_assoc. apply Permutation_app_tail. apply Permutation_app_comm.
      - rewrite IH. rewrite !app_assoc. apply Permutation_app_tail. apply Permutation_app_comm. }
    assert (forall (f : key * num -> bool) a b, Permutation a b -> Permutation (filter f a) (filter f b)) as HF.
    { clear. intros f a b H. induction H; simpl; auto.
      - destruct (f x); auto.
      - destruct (f x), (f y); auto. constructor.
      - etransitivity; eauto. }
    rewrite (HF _ _ _ HP), filter_app. rewrite IH by (intros; apply H; [now right|assumption]).
    simpl filter at 3. destruct (is_nan (snd r)) eqn:En; simpl negb; cbv iota.
    + rewrite filter_none; [reflexivity|]. intros x Hx. apply in_flat_map in Hx as [o [_ Hx]].
      destruct (key_eqb _ _); [|destruct Hx]. destruct Hx as [<-|[]]. now rewrite En.
    + destruct (H r) as [o [Ho E]]; [now left|assumption|]. rewrite E.
      assert (flat_map (fun o0 => if key_eqb [o] [o0] then [r] else []) order = [r]) as ->.
      { clear -Hd Ho. induction order as [|o' order IH]; [destruct Ho|]. inversion Hd; subst. simpl.
        destruct (key_eqb [o] [o']) eqn:E.
        - apply key_eqb_eq in E. injection E as ->. simpl. f_equal.
          clear -H1. induction order as [|x order IH]; auto. simpl.
          destruct (key_eqb [o'] [x]) eqn:E; [|apply IH; intros ?; apply H1; now right].
          apply key_eqb_eq in E. injection E as ->. destruct H1. now left.
        - destruct Ho as [->|Ho]; [rewrite key_eqb_refl in E; discriminate|]. simpl. auto. }
      simpl. rewrite En. simpl. reflexivity.
Qed.
Lemma reindex_no_nan n order fr r : In r (reindex_order n order fr) -> is_nan (snd r) = false.
Proof. unfold reindex_order. rewrite filter_In. intros [_ H]. now destruct (is_nan (snd r)). Qed.
Lemma filter_nan_values (l : rframe) :
  finite_values (List.map snd (filter (fun r => negb (is_nan (snd r))) l)) = finite_values (List.map snd l).
Proof. induction l as [|[k []] l IH]; simpl; auto. now rewrite IH. Qed.
Lemma group_filter_comm {A} n g (f : key * A -> bool) l : group n g (filter f l) = filter f (group n g l).
Proof.
  unfold group. induction l as [|r l IH]; auto. cbn [filter].
  destruct (list_eq_dec string_dec (firstn n (fst r)) g) as [E|E] eqn:D; destruct (f r) eqn:F; cbn [filter]; rewrite ?D, ?F, ?IH; reflexivity.
Qed.

Theorem cumdist_sorted n srt g children :
  (forall l, Permutation (srt l) l) -> nonneg_slice n g children ->
  let out := group n g (cumulative_distribution n (BySort srt) children) in
  let d := group n g (srt (distribution n children)) in
  List.map fst out = List.map fst d /\
  (forall i k v, nth_error d i = Some (k, Fin v) ->
     nth_error out i = Some (k, Fin (Rsum (finite_values (List.map snd (firstn (S i) d)))))) /\
  StronglySorted Rle (finite_values (List.map snd out)) /\ last (finite_values (List.map snd out)) 0 = 1.
Proof.
  intros Hp Hn out d. unfold out. rewrite cumdist_group. simpl ordered_rows. fold d.
  assert (Permutation (List.map snd d) (vals n g (distribution n children))) as Hd by (apply vals_perm, Hp).
  destruct Hn as (Hf & Hn & Ht). assert (total n g children <> 0) as Ht0 by lra.
  pose proof (distribution_finite _ _ _ Hf Ht0) as Hdf.
  assert (Forall no_inf (List.map snd d)) as Hdn.
  { eapply Permutation_Forall; [|exact Hdf]. now symmetry. }
  split; [apply cums_keys|]. split.
  - intros i k v Hi. rewrite (cums_nth _ _ _ _ (Forall_nil _) Hdn Hi). reflexivity.
  - apply (cums_spec n g d children); [unfold nonneg_slice; auto| |exact Hdn].
    rewrite <- (distribution_nums n g children) by assumption. now apply finite_values_perm.
Qed.
Theorem cumdist_ordered n order g children :
  NoDup order -> nonneg_slice n g children ->
  (forall k v, In (k, Fin v) (group n g children) -> exists o, In o order /\ firstn 1 (skipn n k) = [o]) ->
  let out := group n g (cumulative_distribution n (ByOrder order) children) in
  let d := group n g (reindex_order n order (distribution n children)) in
  (forall i k v, nth_error d i = Some (k, Fin v) ->
     nth_error out i = Some (k, Fin (Rsum (finite_values (List.map snd (firstn (S i) d)))))) /\
  List.map fst out = List.map fst d /\
  StronglySorted Rle (finite_values (List.map snd out)) /\ last (finite_values (List.map snd out)) 0 = 1.
Proof.
  intros Ho Hn Hl out d. unfold out. rewrite cumdist_group. simpl ordered_rows. fold d.
  destruct Hn as (Hf & Hn & Ht). assert (total n g children <> 0) as Ht0 by lra.
  pose proof (distribution_finite _ _ _ Hf Ht0) as Hdf.
  assert (d = reindex_order n order (group n g (distribution n children))) as Ed.
  { unfold d, reindex_order. rewrite group_filter_comm. f_equal.
    clear. induction order as [|o order IH]; auto. cbn [flat_map]. rewrite group_app, IH. f_equal. apply group_filter_comm. }
  assert (Permutation d (filter (fun r => negb (is_nan (snd r))) (group n g (distribution n children)))) as Hp.
  { rewrite Ed. apply reindex_perm; auto. intros r Hr Hv.
    rewrite distribution_group in Hr. apply in_map_iff in Hr as [[k v] [<- Hr]]. simpl in *.
    assert (no_inf v) as [Hv1 Hv2].
    { unfold finite_slice in Hf. rewrite Forall_forall in Hf. apply Hf. unfold vals. change v with (snd (k, v)). now apply in_map. }
    destruct v; try congruence; [|discriminate]. eauto. }
  assert (Forall no_inf (List.map snd d)) as Hdn.
  { apply Forall_forall. intros x Hx. eapply Permutation_in in Hx; [|apply Permutation_map, Hp].
    apply in_map_iff in Hx as [r [<- Hr]]. apply filter_In in Hr as [Hr _].
    unfold finite_slice in Hdf. rewrite Forall_forall in Hdf. apply Hdf. now apply in_map. }
  split; [|split; [apply cums_keys|]].
  - intros i k v Hi. rewrite (cums_nth _ _ _ _ (Forall_nil _) Hdn Hi). reflexivity.
  - apply (cums_spec n g d children); [unfold nonneg_slice; auto| |exact Hdn].
    rewrite <- (distribution_nums n g children) by assumption.
    rewrite (finite_values_perm _ _ (Permutation_map snd Hp)), filter_nan_values. reflexivity.
Qed.
(** In the requested order: labels of the result follow [order]. *)
Theorem cumdist_ordered_labels n order g children :
  List.map (fun r => firstn 1 (skipn n (fst r))) (group n g (cumulative_distribution n (ByOrder order) children)) =
  flat_map (fun o => List.map (fun _ => [o])
     (filter (fun r => negb (is_nan (snd r)) && key_eqb (firstn 1 (skipn n (fst r))) [o]) (group n g (distribution n children)))) order.
Proof.
  rewrite cumdist_group. rewrite <- (map_map fst (fun k => firstn 1 (skipn n k))), cums_keys.
  unfold ordered_rows, reindex_order. rewrite group_filter_comm. rewrite map_map.
  induction order as [|o order IH]; auto. cbn [flat_map]. rewrite group_app, filter_app, map_app, IH. f_equal.
  rewrite group_filter_comm. clear IH.
  induction (group n g (distribution n children)) as [|r l IHl]; auto. cbn [filter].
  destruct (key_eqb (firstn 1 (skipn n (fst r))) [o]) eqn:E; cbn [filter]; destruct (is_nan (snd r)) eqn:F; cbn [negb andb]; auto.
  cbn [map]. apply key_eqb_eq in E. rewrite E. f_equal. exact IHl.
Qed.
