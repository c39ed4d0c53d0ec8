(** The standard errors with and without precomputation. *)
From Coq Require Import Reals List Bool String Arith Lia Lra Sorted Permutation.
From Verif Require Import M_Num M_Frame M_Ops M_Slices S_Slices M_Leaf M_Jackknife S_Jackknife L_Frame L_OpsA L_OpsB L_Slices L_Slices2 L_Jackknife L_Jackknife2.
Import ListNotations.
Open Scope nat_scope.
Open Scope list_scope.

Definition present (l : list num) : list num := filter (fun x => negb (is_nan x)) l.
Lemma xadd_comm a b : xadd a b = xadd b a.
Proof. destruct a, b; simpl; auto. f_equal. ring. Qed.
Lemma xadd_assoc a b c : xadd a (xadd b c) = xadd (xadd a b) c.
Proof. destruct a, b, c; simpl; auto. f_equal. ring. Qed.
Lemma xsum_cons x l : xsum (x :: l) = if is_nan x then xsum l else xadd x (xsum l). Proof. reflexivity. Qed.
Lemma xsum_perm l l' : Permutation l l' -> xsum l = xsum l'.
Proof.
  induction 1 as [|x l l' _ IH|x y l|l1 l2 l3 _ IH1 _ IH2]; auto.
  - rewrite !xsum_cons, IH. reflexivity.
  - rewrite !xsum_cons. destruct (is_nan x), (is_nan y); auto. now rewrite !xadd_assoc, (xadd_comm y x).
  - congruence.
Qed.
Lemma xsum_present l : xsum (present l) = xsum l.
Proof. induction l as [|x l IH]; auto. cbn [present filter]. fold (present l). rewrite xsum_cons. destruct (is_nan x) eqn:E; cbn [negb]; auto. now rewrite xsum_cons, E, IH. Qed.
Lemma present_present l : present (present l) = present l.
Proof. induction l as [|x l IH]; auto. unfold present in *. cbn [filter]. destruct (negb (is_nan x)) eqn:E; auto. cbn [filter]. now rewrite E, IH. Qed.
Lemma count_present_length l : count_present l = List.length (present l). Proof. reflexivity. Qed.
Lemma xmean_present l : xmean (present l) = xmean l.
Proof. unfold xmean. now rewrite xsum_present, !count_present_length, present_present. Qed.
Lemma xvar_present l d : xvar (present l) d = xvar l d.
Proof.
  unfold xvar. rewrite !count_present_length, present_present, xmean_present. destruct (Z.leb _ d); auto. f_equal.
  generalize (xmean l). intros m. induction l as [|x l IH]; auto. cbn [present filter]. fold (present l).
  destruct (is_nan x) eqn:E; cbn [negb].
  - rewrite IH. cbn [map]. rewrite xsum_cons. destruct x; try discriminate. reflexivity.
  - cbn [map]. rewrite !xsum_cons. now rewrite IH.
Qed.
Lemma xvar_perm l l' d : Permutation l l' -> xvar l d = xvar l' d.
Proof.
  intros H. assert (Permutation (present l) (present l')) as HP.
  { unfold present. induction H as [|x l l' _ IH|x y l|l1 l2 l3 _ IH1 _ IH2]; auto.
    - cbn [filter]. destruct (negb (is_nan x)); auto.
    - cbn [filter]. destruct (negb (is_nan x)), (negb (is_nan y)); auto. apply perm_swap.
    - eapply perm_trans; eauto. }
  unfold xvar. rewrite !count_present_length. rewrite (Permutation_length HP).
  assert (xmean l = xmean l') as -> by (unfold xmean; rewrite (xsum_perm _ _ H), !count_present_length, (Permutation_length HP); reflexivity).
  destruct (Z.leb _ d); auto. f_equal. apply xsum_perm. now apply Permutation_map.
Qed.
Lemma jk_stderr_present l l' : Permutation (present l) (present l') -> jk_stderr l = jk_stderr l'.
Proof.
  intros H. unfold jk_stderr, std_of, dof_of. rewrite <- (xvar_present l), <- (xvar_present l'), (xvar_perm _ _ _ H).
  now rewrite !count_present_length, (Permutation_length H).
Qed.
Lemma present_app a b : present (a ++ b) = present a ++ present b.
Proof. unfold present. apply filter_app. Qed.
(** two lists of units, the values outside the smaller one missing *)
Lemma present_units {A} (V : A -> num) (big small : list A) : NoDup big -> NoDup small -> incl small big ->
  (forall x, In x big -> ~ In x small -> V x = NaN) -> Permutation (present (List.map V big)) (present (List.map V small)).
Proof.
  intros Hb Hs. revert big Hb. induction Hs as [|x small Hx Hs IH]; intros big Hb Hi Hv.
  - assert (present (List.map V big) = []) as ->; [|constructor]. clear Hi Hb. induction big as [|y big IH]; auto. cbn [map present filter].
    rewrite (Hv y); [cbn [is_nan negb]|now left|simpl; tauto]. apply IH. intros z Hz. apply Hv. now right.
  - assert (In x big) as Hxb by (apply Hi; now left). apply in_split in Hxb as [a [b ->]].
    assert (Permutation (present (List.map V (a ++ b))) (present (List.map V small))) as HP.
    { apply IH.
      - now apply NoDup_remove_1 in Hb.
      - intros y Hy. assert (In y (a ++ x :: b)) as Hyb by (apply Hi; now right). apply in_app_iff in Hyb as [H|[->|H]]; try (apply in_app_iff; tauto).
      - intros y Hy Hn. apply Hv; [apply in_app_iff in Hy as [H|H]; apply in_app_iff; simpl; tauto|]. intros [->|H]; [|contradiction].
        apply NoDup_remove_2 in Hb. contradiction. }
    rewrite !map_app in *. cbn [map]. rewrite !present_app in *. cbn [present filter]. fold (present (List.map V small)). fold (present (List.map V b)).
    destruct (negb (is_nan (V x))); auto. eapply perm_trans; [symmetry; apply Permutation_middle|]. now constructor.
Qed.

Lemma units_from_In unit seen df x : In x (units_from unit seen df) <-> ~ In x seen /\ exists r, In r df /\ lab r unit = x.
Proof.
  revert seen. induction df as [|r df IH]; intros seen; cbn [units_from].
  - simpl. split; [tauto|]. intros [_ [r [[] _]]].
  - destruct (in_dec _ (lab r unit) seen) as [H|H].
    + rewrite IH. split.
      * intros [H1 [q [Hq E]]]. split; auto. exists q. simpl. auto.
      * intros [H1 [q [[->|Hq] E]]]; split; eauto. subst x. contradiction.
    + simpl. rewrite IH. split.
      * intros [<-|[H1 [q [Hq E]]]]; [split; auto; exists r; auto|]. split; [simpl in H1; tauto|]. exists q. auto.
      * intros [H1 [q [[->|Hq] E]]]; [auto|]. destruct (in_dec (fun a b : option string => ltac:(decide equality; apply string_dec)) (lab r unit) [x]) as [[E'|[]]|N]; [auto|].
        right. split; [|eauto]. simpl. simpl in N. intros [F|F]; [apply N; auto|contradiction].
Qed.
Lemma units_from_NoDup unit seen df : NoDup (units_from unit seen df).
Proof.
  revert seen. induction df as [|r df IH]; intros seen; cbn [units_from]; [constructor|]. destruct (in_dec _ (lab r unit) seen); auto.
  constructor; auto. rewrite units_from_In. simpl. tauto.
Qed.

Section Rows.
Variables (t : mtree) (s : list string) (u : string) (df : table).
Let n := List.length s.
Hypothesis Hslice : slicewise_tree t.
Hypothesis Hno : no_slices_added t.
Hypothesis Hsc : sums_and_counts t df.
Hypothesis Hlab : has_labels (s ++ [u] ++ op_columns t) df.
(** in every split, leaving out any of its units leaves data for every leaf, and a result *)
Hypothesis Hpop : forall k x, occurs s u k x df ->
  populated t [] (without u x (slice s k df)) /\ exists r, compute_on t [] (without u x (slice s k df)) = Some r.

Lemma row_key_total cols r : (forall c, In c cols -> lab r c <> None) -> exists k, row_key cols r = Some k.
Proof.
  induction cols as [|c cols IH]; intros H; simpl; [eauto|]. destruct IH as [k ->]; [intros; apply H; now right|].
  destruct (lab r c) eqn:E; [eauto|]. destruct (H c); simpl; auto.
Qed.
Lemma slices_all : df_slices t s u df = df.
Proof.
  unfold df_slices. assert (forall r, In r df -> labelled (s ++ [u] ++ op_columns t) r = true) as H.
  { intros r Hr. unfold labelled. unfold has_labels in Hlab. rewrite Forall_forall in Hlab. destruct (row_key_total (s ++ [u] ++ op_columns t) r (Hlab r Hr)) as [k ->]. reflexivity. }
  clear - H. induction df as [|r l IH]; auto. cbn [filter]. rewrite H by now left. f_equal. apply IH. intros; apply H. now right.
Qed.
Lemma unit_lab : Forall (fun r => lab r u <> None) df.
Proof. unfold has_labels in Hlab. rewrite Forall_forall in *. intros r Hr. apply (Hlab r Hr). rewrite !in_app_iff. simpl. tauto. Qed.
Lemma split_lab r : In r df -> exists k, row_key s r = Some k.
Proof. intros Hr. apply row_key_total. intros c Hc. unfold has_labels in Hlab. rewrite Forall_forall in Hlab. apply (Hlab r Hr). rewrite in_app_iff. now left. Qed.
Lemma occurs_keys k x : List.length k = n -> (occurs s u k x df <-> In (k ++ [x]) (group_keys (s ++ [u]) df)).
Proof.
  intros Hk. rewrite bucket_keys. unfold occurs. split; intros [r H]; exists r.
  - destruct H as [H1 [H2 H3]]. split; auto. now apply row_key_unit_mk.
  - destruct H as [H1 H2]. split; auto. apply row_key_unit in H2 as [a [y [b [E [E1 [E2 E3]]]]]]. cbn in E3. injection E3 as <-.
    apply app_inj_tail in E as [-> ->]. auto.
Qed.
Lemma occurs_length k x : occurs s u k x df -> List.length k = n.
Proof. intros [r [_ [E _]]]. eapply row_key_length; eauto. Qed.
(** the precomputed replicates exist as soon as a unit does *)
Lemma fast_here R k x r : compute_with (loo_leaf n (df_slices t s u df)) t (s ++ [u]) df = Some R -> occurs s u k x df ->
  compute_on t [] (without u x (slice s k df)) = Some r -> restrict (S n) (k ++ [x]) R = r.
Proof.
  intros HR Ho Hr. destruct (Hpop k x Ho) as [HP _]. pose proof (occurs_length _ _ Ho) as Hk.
  rewrite slices_all in HR. pose proof Ho as Hx. apply occurs_keys in Hx; auto.
  destruct (fast_slice s u t [] df df k x r Hslice Hsc unit_lab Hx Hk HP Hr) as [R' [E H]]. fold n in H. assert (R = R') as -> by (unfold n in HR; rewrite HR in E; now injection E). exact H.
Qed.
Lemma fast_exists k x : occurs s u k x df -> exists R, fast_replicates t s u df = Some R.
Proof.
  intros Ho. destruct (Hpop k x Ho) as [HP [r Hr]]. pose proof (occurs_length _ _ Ho) as Hk. pose proof Ho as Hx. apply occurs_keys in Hx; auto.
  destruct (fast_slice s u t [] df df k x r Hslice Hsc unit_lab Hx Hk HP Hr) as [R' [E H]]. exists R'. unfold fast_replicates.
  now rewrite slices_all.
Qed.
Lemma direct_here k x r : occurs s u k x df -> compute_on t [] (without u x (slice s k df)) = Some r ->
  exists D, compute_on t s (loo_sample s u df (Some x)) = Some D /\ restrict n k D = r.
Proof.
  intros Ho Hr. pose proof (occurs_length _ _ Ho) as Hk. destruct (Hpop k x Ho) as [HP _].
  rewrite <- (sample_here s u df x k Ho Hk) in HP, Hr.
  destruct (compute_on_slice t s [] k _ r Hslice Hk HP Hr) as [D H]. rewrite app_nil_r in H. eauto.
Qed.
Lemma occurs_unsplit x : s = [] -> (exists r, In r df /\ lab r u = Some x) -> occurs s u [] x df.
Proof. intros E [r [Hr H]]. exists r. rewrite E. auto. Qed.
(** one row, one unit *)
Lemma value_here R k g x D : fast_replicates t s u df = Some R -> List.length k = n ->
  (exists r, In r df /\ lab r u = Some x) -> compute_on t s (loo_sample s u df (Some x)) = Some D ->
  lookup (k ++ g) D = lookup (k ++ x :: g) R.
Proof.
  intros HR Hk Hx HD.
  assert (occurs s u k x df \/ ~ occurs s u k x df) as [Ho|Ho].
  { rewrite occurs_existsb. destruct (existsb _ df); [now left|right; discriminate]. }
  - destruct (Hpop k x Ho) as [_ [r Hr]]. destruct (direct_here k x r Ho Hr) as [D' [E HD']]. assert (D' = D) by congruence. subst D'.
    assert (restrict (S n) (k ++ [x]) R = r) as HRr by (apply fast_here; auto).
    rewrite <- (lookup_restrict n k g D Hk), HD', <- HRr.
    rewrite lookup_restrict by (rewrite app_length; simpl; lia). now rewrite <- app_assoc.
  - assert (s <> []) as Hs.
    { intros E. apply Ho. assert (k = []) as -> by (unfold n in Hk; rewrite E in Hk; now destruct k). now apply occurs_unsplit. }
    rewrite (lookup_None (k ++ g) D), (lookup_None (k ++ x :: g) R); auto; intros H; apply in_map_iff in H as [[q v] [E H]]; cbn [fst] in E; subst q.
    + unfold fast_replicates in HR. apply (fast_keys s u t [] df _ R _ Hno HR) in H. cbn [fst] in H.
      change (k ++ x :: g) with (k ++ [x] ++ g) in H. rewrite app_assoc, firstn_app_len in H by (rewrite app_length; simpl; unfold n in *; lia).
      rewrite slices_all in H. apply occurs_keys in H; auto.
    + rewrite <- (app_nil_r s) in HD. pose proof (compute_on_keys t s [] (loo_sample (s ++ []) u df (Some x)) D _ Hno Hs HD H) as Hne. cbn [fst] in Hne.
      rewrite firstn_app_len in Hne by assumption. rewrite app_nil_r in Hne. apply Hne. now apply sample_not_here.
Qed.
Lemma value_missing R k g x : fast_replicates t s u df = Some R -> List.length k = n ->
  compute_on t s (loo_sample s u df (Some x)) = None -> lookup (k ++ x :: g) R = NaN.
Proof.
  intros HR Hk HD. apply lookup_None. intros H. apply in_map_iff in H as [[q v] [E H]]. cbn [fst] in E. subst q.
  unfold fast_replicates in HR. apply (fast_keys s u t [] df _ R _ Hno HR) in H. cbn [fst] in H.
  change (k ++ x :: g) with (k ++ [x] ++ g) in H. rewrite app_assoc, firstn_app_len in H by (rewrite app_length; simpl; unfold n in *; lia).
  rewrite slices_all in H. apply occurs_keys in H; auto. destruct (Hpop k x H) as [_ [r Hr]]. destruct (direct_here k x r H Hr) as [D [E _]]. congruence.
Qed.
Lemma loo_units_In x : In x (loo_units s u df) -> exists y, x = Some y /\ exists r, In r df /\ lab r u = Some y.
Proof.
  pose proof unit_lab as Hu. rewrite Forall_forall in Hu. unfold loo_units. destruct s as [|c s'].
  - unfold units_of. rewrite units_from_In. intros [_ [r [Hr E]]]. destruct x as [y|]; [eauto|]. destruct (Hu r Hr E).
  - rewrite in_map_iff. intros [k [<- Hk]]. rewrite sort_uniq_In, keys_of_In in Hk. destruct Hk as [r [Hr E]]. simpl in E.
    destruct (lab r u) as [y|] eqn:Ey; [|discriminate]. injection E as <-. simpl. eauto.
Qed.
Lemma loo_units_all r y : In r df -> lab r u = Some y -> In (Some y) (loo_units s u df).
Proof.
  intros Hr E. unfold loo_units. destruct s as [|c s'].
  - unfold units_of. apply units_from_In. simpl. split; [tauto|eauto].
  - apply in_map_iff. exists [y]. split; auto. rewrite sort_uniq_In, keys_of_In. exists r. split; auto. simpl. now rewrite E.
Qed.
Lemma loo_units_NoDup : NoDup (loo_units s u df).
Proof.
  unfold loo_units. destruct s as [|c s']; [apply units_from_NoDup|].
  assert (NoDup (sort_uniq (keys_of [u] df))) as HN by (apply L_Frame.ksorted_NoDup, sort_uniq_sorted).
  assert (forall k, In k (sort_uniq (keys_of [u] df)) -> exists y, k = [y]) as H1.
  { intros k Hk. rewrite sort_uniq_In, keys_of_In in Hk. destruct Hk as [r [_ E]]. apply row_key_length in E. destruct k as [|y [|? ?]]; try discriminate. eauto. }
  induction HN as [|k l Hk HN IH]; simpl; constructor.
  - intros H. apply in_map_iff in H as [k' [E Hk']]. destruct (H1 k (or_introl eq_refl)) as [y ->]. destruct (H1 k' (or_intror Hk')) as [y' ->].
    simpl in E. injection E as ->. contradiction.
  - apply IH. intros k' Hk'. apply H1. now right.
Qed.
Lemma rows_agree R reps k g : fast_replicates t s u df = Some R -> direct_replicates t s u df = Some reps -> List.length k = n ->
  Permutation (present (direct_row reps (k ++ g))) (present (fast_row n R (k ++ g))).
Proof.
  intros HR HD Hk. set (V := fun x : option string => match x with Some y => lookup (k ++ y :: g) R | None => NaN end).
  assert (present (direct_row reps (k ++ g)) = present (List.map V (loo_units s u df))) as ->.
  { unfold direct_replicates in HD. destruct (Nat.ltb _ 2); [discriminate|]. injection HD as <-. unfold direct_row.
    assert (forall l, incl l (loo_units s u df) ->
      present (List.map (lookup (k ++ g)) (flat_map (fun x => match compute_on t s (loo_sample s u df x) with Some r => [r] | None => [] end) l)) = present (List.map V l)) as H; [|apply H, incl_refl].
    induction l as [|x l IH]; intros Hi; auto. cbn [flat_map map]. rewrite map_app, present_app, IH by (intros z Hz; apply Hi; now right).
    change (V x :: List.map V l) with ([V x] ++ List.map V l). rewrite present_app. f_equal.
    destruct (loo_units_In x) as [y [-> Hy]]; [apply Hi; now left|]. cbn [V]. destruct (compute_on t s (loo_sample s u df (Some y))) as [D|] eqn:E.
    - cbn [map]. now rewrite (value_here R k g y D).
    - cbn [map]. rewrite (value_missing R k g y); auto. }
  set (small := List.map (fun l => hd_error l) (unit_labels n R)).
  assert (forall l, In l (unit_labels n R) -> exists k0 y, l = [y] /\ occurs s u k0 y df) as Hul.
  { intros l Hl. unfold unit_labels in Hl. rewrite sort_uniq_In, in_map_iff in Hl. destruct Hl as [q [<- Hq]].
    unfold fast_replicates in HR. apply (fast_keys s u t [] df _ R q Hno HR) in Hq. rewrite slices_all in Hq. apply bucket_keys in Hq as [r [Hr E]].
    apply row_key_unit in E as [a [y [b [E [E1 [E2 E3]]]]]]. cbn in E3. injection E3 as <-. pose proof (row_key_length _ _ _ E1) as La. fold n in La.
    exists a, y. split; [|exists r; auto]. fold n in E. rewrite <- (firstn_skipn (S n) (fst q)), E. rewrite <- app_assoc. rewrite skipn_app_len by assumption. reflexivity. }
  assert (fast_row n R (k ++ g) = List.map V small) as ->.
  { unfold fast_row, small. rewrite map_map. apply map_ext_in. intros l Hl. destruct (Hul l Hl) as [k0 [y [-> _]]]. cbn [hd_error V].
    now rewrite firstn_app_len, skipn_app_len by assumption. }
  apply present_units.
  - apply loo_units_NoDup.
  - unfold small. assert (NoDup (unit_labels n R)) as HN by (apply L_Frame.ksorted_NoDup, sort_uniq_sorted). clear - HN Hul.
    induction HN as [|l L Hl HN IH]; simpl; constructor.
    + intros H. apply in_map_iff in H as [l' [E Hl']]. destruct (Hul l (or_introl eq_refl)) as [_ [y [-> _]]]. destruct (Hul l' (or_intror Hl')) as [_ [y' [-> _]]].
      simpl in E. injection E as ->. contradiction.
    + apply IH. intros l' Hl'. apply Hul. now right.
  - intros x Hx. unfold small in Hx. apply in_map_iff in Hx as [l [<- Hl]]. destruct (Hul l Hl) as [k0 [y [-> [r [Hr [_ E]]]]]]. simpl. eapply loo_units_all; eauto.
  - intros x Hx Hn. destruct (loo_units_In x Hx) as [y [-> _]]. cbn [V]. apply lookup_None. intros H. apply in_map_iff in H as [[q v] [E H]]. cbn [fst] in E. subst q.
    apply Hn. unfold small. apply in_map_iff. exists [y]. split; auto. unfold unit_labels. rewrite sort_uniq_In, in_map_iff. exists (k ++ y :: g, v).
    cbn [fst]. now rewrite skipn_app_len by assumption.
Qed.
(** the whole result *)
Lemma results_agree : 2 <= List.length (units_of u df) -> jackknife_fast t s u df = jackknife_direct t s u df.
Proof.
  intros H2. unfold jackknife_fast, jackknife_direct.
  assert (fast_point_estimate t s u df = compute_on t s df) as ->.
  { unfold fast_point_estimate. pose proof (fast_point_eq s u t [] df Hsc unit_lab) as H. now rewrite !app_nil_r in H. }
  assert (exists k x, occurs s u k x df) as [k0 [x0 Ho]].
  { assert (exists r, In r df) as [r Hr] by (clear - H2; unfold units_of in H2; destruct df as [|r l]; [simpl in H2; lia|exists r; now left]).
    destruct (split_lab r Hr) as [k Hk]. pose proof unit_lab as Hu. rewrite Forall_forall in Hu. destruct (lab r u) as [x|] eqn:Ex; [|destruct (Hu r Hr Ex)].
    exists k, x, r. auto. }
  destruct (fast_exists k0 x0 Ho) as [R HR]. rewrite HR.
  destruct (direct_replicates t s u df) as [reps|] eqn:HD.
  - assert (reps <> []) as Hne.
    { pose proof HD as HD'. unfold direct_replicates in HD'. destruct (Nat.ltb _ 2); [discriminate|]. injection HD' as <-.
      destruct (Hpop k0 x0 Ho) as [_ [r0 Hr0]]. destruct (direct_here k0 x0 r0 Ho Hr0) as [D [E _]].
      assert (In D (flat_map (fun x => match compute_on t s (loo_sample s u df x) with Some r => [r] | None => [] end) (loo_units s u df))) as HI.
      { apply in_flat_map. exists (Some x0). destruct Ho as [r [Hr [_ Hx]]]. split; [eapply loo_units_all; eauto|]. rewrite E. now left. }
      intros F. rewrite F in HI. destruct HI. }
    destruct reps as [|d0 reps]; [congruence|]. destruct (compute_on t s df) as [p|] eqn:Ep; auto. f_equal. apply map_ext_in. intros q Hq. f_equal.
    apply jk_stderr_present. symmetry.
    assert (exists k g, fst q = k ++ g /\ List.length k = n) as [k [g [-> Hk]]].
    { exists (firstn n (fst q)), (skipn n (fst q)). rewrite firstn_skipn. split; auto.
      assert (s = [] \/ s <> []) as [Es|Hs] by (clear; destruct s; [now left|right; discriminate]); [unfold n; rewrite Es; reflexivity|]. rewrite <- (app_nil_r s) in Ep.
      pose proof (compute_on_keys t s [] df p q Hno Hs Ep Hq) as Hne'. apply slice_nonempty in Hne' as [r [_ E]]. apply row_key_length in E. exact E. }
    now apply rows_agree.
  - unfold direct_replicates in HD. destruct (Nat.ltb (List.length (units_of u df)) 2) eqn:E; [apply Nat.ltb_lt in E; lia|discriminate].
Qed.
End Rows.
