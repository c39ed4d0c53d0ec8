(** Diversity: HHI, Entropy, TopK, Nxx. *)
From Coq Require Import Reals List Bool String Arith Lia Lra Permutation Sorted.
From Verif Require Import M_Num M_Frame M_Ops S_Ops L_Frame L_OpsA.
Import ListNotations.
Open Scope list_scope.
Open Scope R_scope.

Lemma value_at_map (f : key -> num) ks g : NoDup ks -> In g ks -> value_at g (List.map (fun k => (k, f k)) ks) (f g).
Proof.
  unfold value_at. induction ks as [|k ks IH]; intros Hd Hi; [destruct Hi|]. inversion Hd; subst. cbn [map filter fst].
  destruct (list_eq_dec string_dec k g) as [->|E].
  - f_equal. apply filter_none. intros x Hx. apply in_map_iff in Hx as [k [<- Hk]]. simpl.
    destruct (list_eq_dec string_dec k g); congruence.
  - destruct Hi as [->|Hi]; [congruence|auto].
Qed.
Lemma value_at_fun g fr x y : value_at g fr x -> value_at g fr y -> x = y.
Proof. unfold value_at. congruence. Qed.
Lemma groupby_value n agg fr g : In g (level_keys n fr) -> value_at g (groupby_level n agg fr) (agg (vals n g fr)).
Proof. intros H. apply (value_at_map (fun g => agg (vals n g fr))); auto. apply ksorted_NoDup, level_keys_sorted. Qed.
Lemma level_keys_dist n fr : level_keys n (distribution n fr) = level_keys n fr.
Proof.
  destruct n as [|n]; [reflexivity|]. unfold level_keys. f_equal.
  rewrite <- (map_map fst (firstn (S n))), distribution_index, map_map. reflexivity.
Qed.
Lemma slice_key n g child : 0 < total n g child -> In g (level_keys n child).
Proof.
  intros H. unfold total, nums, vals in H. destruct (group n g child) as [|r l] eqn:E; [simpl in H; lra|].
  assert (In r (group n g child)) as Hr by (rewrite E; now left). apply group_In in Hr as [Hr <-]. now apply level_keys_here.
Qed.
Lemma shares_sum n g child : 0 < total n g child -> Rsum (shares n g child) = 1.
Proof. intros H. unfold shares. rewrite Rsum_div. apply Rinv_r. lra. Qed.
Lemma shares_nonneg n g child : nonneg_slice n g child -> Forall (fun x => 0 <= x) (shares n g child).
Proof.
  intros (_ & Hn & Ht). unfold shares. apply Forall_map. eapply Forall_impl; [|exact Hn]. simpl. intros a Ha.
  apply Rmult_le_pos; auto. left. now apply Rinv_0_lt_compat.
Qed.
Lemma shares_length n g child : List.length (shares n g child) = List.length (nums n g child).
Proof. apply map_length. Qed.
Lemma Rsum_le_one l : Forall (fun x => 0 <= x) l -> Forall (fun x => x <= Rsum l) l.
Proof.
  induction 1 as [|x l Hx Hl IH]; constructor; simpl.
  - assert (0 <= Rsum l) by (clear -Hl; induction Hl; simpl; lra). lra.
  - eapply Forall_impl; [|exact IH]. simpl. intros; lra.
Qed.
Lemma Rsum_nonneg l : Forall (fun x => 0 <= x) l -> 0 <= Rsum l.
Proof. induction 1; simpl; lra. Qed.
Lemma dist_vals_finite n g child : nonneg_slice n g child ->
  Forall no_inf (vals n g (distribution n child)) /\ finite_values (vals n g (distribution n child)) = shares n g child.
Proof.
  intros (Hf & Hn & Ht). split; [apply distribution_finite; auto; lra | apply distribution_nums; auto; lra].
Qed.

(** HHI *)
Lemma squares_finite l : Forall no_inf l ->
  xsum (List.map (fun x => xmul x x) l) = Fin (Rsum (List.map (fun p => p * p) (finite_values l))).
Proof.
  intros H. rewrite xsum_finite.
  - do 2 f_equal. induction H as [|x l [H1 H2] _ IH]; simpl; auto. destruct x; simpl; try congruence.
  - apply Forall_map. eapply Forall_impl; [|exact H]. intros x [H1 H2]. destruct x; simpl; split; congruence.
Qed.
Theorem hhi_value n g child : nonneg_slice n g child ->
  value_at g (hhi n child) (Fin (Rsum (List.map (fun p => p * p) (shares n g child)))).
Proof.
  intros H. destruct (dist_vals_finite _ _ _ H) as [H1 H2]. rewrite <- H2, <- squares_finite by assumption.
  apply groupby_value with (agg := fun l => xsum (List.map (fun x => xmul x x) l)).
  rewrite level_keys_dist. apply slice_key, H.
Qed.
Lemma Rsum_sq_lower l : l <> [] -> Rsum l = 1 -> / INR (List.length l) <= Rsum (List.map (fun p => p * p) l).
Proof.
  intros Hne H1. set (m := INR (List.length l)). assert (0 < m) as Hm by (apply lt_0_INR; destruct l; simpl; [congruence|lia]).
  assert (0 <= Rsum (List.map (fun p => (p - / m) * (p - / m)) l)) as H0.
  { apply Rsum_nonneg, Forall_map, Forall_forall. intros x _. apply Rle_0_sqr. }
  assert (forall c (l' : list R), Rsum (List.map (fun p => (p - c) * (p - c)) l') =
     Rsum (List.map (fun p => p * p) l') - 2 * c * Rsum l' + INR (List.length l') * (c * c)) as HE.
  { intros c l'. induction l' as [|x l' IH]; [simpl; ring|]. cbn [map Rsum List.length]. rewrite S_INR, IH. ring. }
  rewrite HE, H1 in H0. fold m in H0.
  replace (m * (/ m * / m)) with (/ m) in H0 by (field; lra). lra.
Qed.
Lemma Rsum_sq_upper l : Forall (fun x => 0 <= x) l -> Rsum l = 1 -> Rsum (List.map (fun p => p * p) l) <= 1.
Proof.
  intros Hn H1. pose proof (Rsum_le_one _ Hn) as Hle. rewrite H1 in Hle.
  assert (Rsum (List.map (fun p => p * p) l) <= Rsum l); [|lra]. clear H1.
  induction l as [|x l IH]; simpl; [lra|]. inversion Hn; inversion Hle; subst. specialize (IH H2 H6). nra.
Qed.
Theorem hhi_bounds n g child : nonneg_slice n g child ->
  exists h, value_at g (hhi n child) (Fin h) /\ / INR (List.length (nums n g child)) <= h <= 1.
Proof.
  intros H. eexists. split; [now apply hhi_value|]. destruct H as (Hf & Hn & Ht).
  pose proof (shares_sum _ _ _ Ht) as H1. split.
  - rewrite <- shares_length. apply Rsum_sq_lower; auto. intros E. rewrite E in H1. simpl in H1. lra.
  - apply Rsum_sq_upper; auto. apply shares_nonneg. repeat split; auto.
Qed.

(** scaling *)
Lemma group_scaled c n g fr : group n g (scaled c fr) = scaled c (group n g fr).
Proof. apply (group_map n g (fun r => match snd r with Fin x => Fin (c * x) | y => y end)). Qed.
Lemma nums_scaled c n g fr : nums n g (scaled c fr) = List.map (Rmult c) (nums n g fr).
Proof.
  unfold nums, vals. rewrite group_scaled. unfold scaled. rewrite map_map. simpl.
  induction (group n g fr) as [|[k v] l IH]; simpl; auto. destruct v; simpl; auto. now rewrite IH.
Qed.
Lemma total_scaled c n g fr : total n g (scaled c fr) = c * total n g fr.
Proof. unfold total. rewrite nums_scaled. apply Rsum_scal. Qed.
Lemma shares_scaled c n g fr : c <> 0 -> total n g fr <> 0 -> shares n g (scaled c fr) = shares n g fr.
Proof.
  intros Hc Ht. unfold shares. rewrite nums_scaled, total_scaled, map_map. apply map_ext. intros x. field. auto.
Qed.
Lemma nonneg_scaled c n g fr : 0 < c -> nonneg_slice n g fr -> nonneg_slice n g (scaled c fr).
Proof.
  intros Hc (Hf & Hn & Ht). split; [|split].
  - unfold finite_slice, vals in *. rewrite group_scaled. unfold scaled. rewrite map_map. simpl.
    apply Forall_map. rewrite Forall_map in Hf. eapply Forall_impl; [|exact Hf]. intros [k v]; simpl.
    destruct v; intros []; split; congruence.
  - rewrite nums_scaled. apply Forall_map. eapply Forall_impl; [|exact Hn]. simpl. intros. nra.
  - rewrite total_scaled. nra.
Qed.
Theorem hhi_scale n g child c x : 0 < c -> nonneg_slice n g child ->
  value_at g (hhi n child) x -> value_at g (hhi n (scaled c child)) x.
Proof.
  intros Hc H Hv. rewrite (value_at_fun _ _ _ _ Hv (hhi_value _ _ _ H)).
  rewrite <- (shares_scaled c n g child); [|lra|destruct H as (_ & _ & ?); lra]. apply hhi_value, nonneg_scaled; auto.
Qed.

(** Entropy *)
Definition plogp (p : R) : R := - p * ln p.
Definition positive (p : R) : bool := if Rlt_dec 0 p then true else false.
Lemma entropy_finite l : Forall no_inf l -> Forall (fun x => 0 <= x) (finite_values l) ->
  xsum (List.map (fun x => xmul (xopp x) (xlog x)) l) = Fin (Rsum (List.map plogp (filter positive (finite_values l)))).
Proof.
  intros H Hn. rewrite xsum_finite.
  - do 2 f_equal. induction H as [|x l [H1 H2] _ IH]; simpl; auto.
    destruct x as [x| | |]; try congruence; [|apply IH, Hn]. simpl finite_values in *. inversion Hn; subst.
    cbn [filter]. unfold positive at 1. simpl. destruct (Rlt_dec 0 x).
    + simpl. f_equal. auto.
    + destruct (Req_EM_T x 0); [|lra]. unfold inf_times. destruct (Req_EM_T (- x) 0); [|lra]. simpl. auto.
  - revert Hn. induction H as [|x l [H1 H2] _ IH]; simpl; intros Hn; constructor.
    + destruct x as [x| | |]; try congruence; [|split; discriminate]. simpl in *. inversion Hn; subst.
      destruct (Rlt_dec 0 x); [split; discriminate|]. destruct (Req_EM_T x 0); [|lra]. unfold inf_times.
      destruct (Req_EM_T (- x) 0); [split; discriminate|lra].
    + apply IH. destruct x; simpl in Hn; auto. now inversion Hn.
Qed.
Theorem entropy_value n g child : nonneg_slice n g child ->
  value_at g (entropy n child) (Fin (Rsum (List.map plogp (filter positive (shares n g child))))).
Proof.
  intros H. destruct (dist_vals_finite _ _ _ H) as [H1 H2]. pose proof (shares_nonneg _ _ _ H) as Hs.
  rewrite <- H2 in Hs |- *. rewrite <- entropy_finite by assumption.
  apply groupby_value with (agg := fun l => xsum (List.map (fun x => xmul (xopp x) (xlog x)) l)).
  rewrite level_keys_dist. apply slice_key, H.
Qed.
Lemma ln_le_sub x : 0 < x -> ln x <= x - 1.
Proof.
  intros H. destruct (Rle_lt_dec (ln x) (x - 1)) as [|C]; auto.
  apply exp_increasing in C. rewrite exp_ln in C by assumption.
  pose proof (exp_ineq1_le (x - 1)). lra.
Qed.
Lemma Rsum_filter_pos l : Forall (fun x => 0 <= x) l -> Rsum (filter positive l) = Rsum l.
Proof.
  induction 1 as [|x l Hx _ IH]; simpl; auto. unfold positive at 1. destruct (Rlt_dec 0 x); simpl; rewrite IH; lra.
Qed.
Lemma entropy_upper l m : 0 < m -> Forall (fun x => 0 < x) l ->
  Rsum (List.map plogp l) <= Rsum l * ln m + (INR (List.length l) / m - Rsum l).
Proof.
  intros Hm. induction 1 as [|x l Hx _ IH]; [simpl; lra|]. cbn [map Rsum List.length]. rewrite S_INR.
  assert (plogp x <= x * ln m + (1 / m - x)); [|unfold Rdiv in *; lra].
  unfold plogp. assert (0 < / (x * m)) by (apply Rinv_0_lt_compat; nra).
  pose proof (ln_le_sub _ H) as HL. rewrite ln_Rinv in HL by nra. rewrite ln_mult in HL by lra.
  assert (x * (- (ln x + ln m)) <= x * (/ (x * m) - 1)) by (apply Rmult_le_compat_l; lra).
  replace (x * (/ (x * m) - 1)) with (1 / m - x) in H0 by (field; lra). lra.
Qed.
Lemma entropy_lower l : Forall (fun x => 0 < x) l -> Forall (fun x => x <= 1) l -> 0 <= Rsum (List.map plogp l).
Proof.
  intros Hp Hl. apply Rsum_nonneg, Forall_map. apply Forall_forall. intros x Hx. rewrite Forall_forall in *.
  specialize (Hp x Hx). specialize (Hl x Hx). unfold plogp.
  assert (ln x <= 0) by (rewrite <- ln_1; destruct Hl as [Hl| ->]; [left; now apply ln_increasing | lra]). nra.
Qed.
Theorem entropy_bounds n g child : nonneg_slice n g child ->
  exists h, value_at g (entropy n child) (Fin h) /\ 0 <= h <= ln (INR (List.length (nums n g child))).
Proof.
  intros H. eexists. split; [now apply entropy_value|]. pose proof (shares_nonneg _ _ _ H) as Hs.
  destruct H as (Hf & Hn & Ht). pose proof (shares_sum _ _ _ Ht) as H1.
  assert (Forall (fun x => 0 < x) (filter positive (shares n g child))) as Hp.
  { apply Forall_forall. intros x Hx. apply filter_In in Hx as [_ Hx]. unfold positive in Hx. destruct (Rlt_dec 0 x); auto; discriminate. }
  pose proof (Rsum_le_one _ Hs) as Hle. rewrite H1 in Hle. split.
  - apply entropy_lower; auto. apply Forall_forall. intros x Hx. apply filter_In in Hx as [Hx _]. rewrite Forall_forall in Hle. auto.
  - rewrite <- shares_length. set (l := shares n g child) in *.
    assert (l <> []) as Hne by (intros E; rewrite E in H1; simpl in H1; lra).
    set (m := INR (List.length l)). assert (0 < m) as Hm by (apply lt_0_INR; destruct l; simpl; [congruence|lia]).
    pose proof (entropy_upper (filter positive l) m Hm Hp) as HU. rewrite (Rsum_filter_pos _ Hs), H1 in HU.
    assert (INR (List.length (filter positive l)) / m <= 1); [|lra].
    assert (INR (List.length (filter positive l)) <= m) as HL.
    { apply le_INR. clear. induction l; simpl; auto. destruct (positive a); simpl; lia. }
    apply (Rmult_le_reg_r m); auto. unfold Rdiv. rewrite Rmult_assoc, Rinv_l by lra. lra.
Qed.
Theorem entropy_scale n g child c x : 0 < c -> nonneg_slice n g child ->
  value_at g (entropy n child) x -> value_at g (entropy n (scaled c child)) x.
Proof.
  intros Hc H Hv. rewrite (value_at_fun _ _ _ _ Hv (entropy_value _ _ _ H)).
  rewrite <- (shares_scaled c n g child); [|lra|destruct H as (_ & _ & ?); lra]. apply entropy_value, nonneg_scaled; auto.
Qed.

(** sorting values in descending order *)
Lemma insert_desc_perm x l : Permutation (insert_desc x l) (x :: l).
Proof.
  induction l as [|y l IH]; simpl; auto. destruct (is_nan y); auto. destruct (is_nan x).
  - rewrite IH. constructor.
  - destruct (xlt y x); auto. rewrite IH. constructor.
Qed.
Lemma sort_desc_perm l : Permutation (sort_desc l) l.
Proof. induction l; simpl; auto. rewrite insert_desc_perm. now constructor. Qed.
Notation rsorted := (StronglySorted Rge).
(** numbers in descending order, then the missing values *)
Inductive desc : list num -> Prop :=
  | desc_nan l : Forall (fun x => x = NaN) l -> desc l
  | desc_fin x l : desc l -> Forall (fun y => y <= x) (finite_values l) -> desc (Fin x :: l).
Lemma insert_desc_desc x l : no_inf x -> desc l -> desc (insert_desc x l).
Proof.
  intros [Hx1 Hx2]. induction 1 as [l Hl|y l Hd IH Hy].
  - destruct l as [|z l]; simpl.
    + destruct x; try congruence; [|apply desc_nan; repeat constructor]. apply desc_fin; [apply desc_nan|]; constructor.
    + inversion Hl; subst. simpl. destruct x; try congruence.
      * apply desc_fin; [now apply desc_nan|]. assert (finite_values (NaN :: l) = []) as ->; [|constructor].
        simpl. clear -H2. induction H2; subst; auto.
      * apply desc_nan. constructor; auto.
  - simpl. destruct x as [x| | |]; try congruence; simpl.
    + destruct (Rlt_dec y x) as [Hlt|Hlt].
      * apply desc_fin; [now apply desc_fin|]. simpl. constructor; [lra|]. eapply Forall_impl; [|exact Hy]. simpl; intros; lra.
      * apply desc_fin; auto. eapply Permutation_Forall; [apply finite_values_perm; symmetry; apply insert_desc_perm|].
        simpl. constructor; [lra|assumption].
    + apply desc_fin; auto. eapply Permutation_Forall; [apply finite_values_perm; symmetry; apply insert_desc_perm|]. exact Hy.
Qed.
Lemma sort_desc_desc l : Forall no_inf l -> desc (sort_desc l).
Proof. induction 1; simpl; [apply desc_nan; constructor|]. now apply insert_desc_desc. Qed.
Lemma desc_values l : desc l -> rsorted (finite_values l) /\
  filter (fun x => negb (is_nan x)) l = List.map Fin (finite_values l).
Proof.
  induction 1 as [l Hl|x l Hd [IH1 IH2] Hx].
  - induction Hl; subst; simpl; auto. split; [constructor|reflexivity].
  - simpl. split; [constructor; auto; eapply Forall_impl; [|exact Hx]; simpl; intros; lra|]. now rewrite IH2.
Qed.
Definition Rdesc (l : list num) := finite_values (sort_desc l).
Lemma Rdesc_spec l : Forall no_inf l -> Permutation (Rdesc l) (finite_values l) /\ rsorted (Rdesc l) /\
  filter (fun x => negb (is_nan x)) (sort_desc l) = List.map Fin (Rdesc l).
Proof.
  intros H. split; [apply finite_values_perm, sort_desc_perm|]. now apply desc_values, sort_desc_desc.
Qed.
(** no other choice of as many elements has a larger sum *)
Lemma top_best s a b : rsorted s -> Permutation s (a ++ b) -> Rsum a <= Rsum (firstn (List.length a) s).
Proof.
  intros Hs; revert a b; induction Hs as [|x s Hs IH Hx]; intros a b Hp.
  - apply Permutation_nil in Hp. destruct a; [simpl; lra|discriminate].
  - assert (In x (a ++ b)) as Hi by (eapply Permutation_in; [exact Hp|now left]).
    apply in_app_or in Hi as [Hi|Hi].
    + apply in_split in Hi as (a1 & a2 & ->).
      assert (Permutation s ((a1 ++ a2) ++ b)) as Hp'.
      { apply (Permutation_cons_inv (a := x)). rewrite Hp. rewrite <- !app_assoc. simpl. symmetry. apply Permutation_middle. }
      specialize (IH _ _ Hp'). rewrite app_length. simpl List.length. rewrite Nat.add_succ_r. cbn [firstn Rsum].
      rewrite <- app_length. rewrite (Rsum_perm (a1 ++ x :: a2) (x :: a1 ++ a2)) by (symmetry; apply Permutation_middle).
      simpl. lra.
    + apply in_split in Hi as (b1 & b2 & ->).
      assert (Permutation s (a ++ (b1 ++ b2))) as Hp'.
      { apply (Permutation_cons_inv (a := x)). rewrite Hp. rewrite !app_assoc. symmetry. apply Permutation_middle. }
      specialize (IH _ _ Hp'). destruct a as [|y a]; [simpl; lra|]. cbn [List.length] in *. cbn [firstn Rsum]. cbn [Rsum] in IH.
      assert (Rsum (firstn (S (List.length a)) s) <= x + Rsum (firstn (List.length a) s)); [|lra].
      assert (List.length a < List.length s)%nat as HL.
      { pose proof (Permutation_length Hp') as HL. simpl in HL. rewrite app_length in HL. lia. }
      clear -Hx HL. revert HL. generalize (List.length a) as k. intros k Hk.
      revert s Hx Hk. induction k as [|k IH]; intros s Hx Hk; destruct s as [|z s]; simpl in *; try lia.
      * inversion Hx; subst. lra.
      * inversion Hx; subst. assert (k < List.length s)%nat as Hk' by lia. specialize (IH s H2 Hk'). destruct s; simpl in *; lra.
Qed.
Lemma firstn_app_sum (s : list R) k : Rsum s = Rsum (firstn k s) + Rsum (skipn k s).
Proof. rewrite <- Rsum_app, firstn_skipn. reflexivity. Qed.
Lemma rsorted_app s k a b : rsorted s -> In a (firstn k s) -> In b (skipn k s) -> b <= a.
Proof.
  intros Hs; revert k; induction Hs as [|x s Hs IH Hx]; intros k; destruct k; simpl; try tauto.
  intros [->|H1] H2; [|eauto]. rewrite Forall_forall in Hx. apply Rge_le, Hx.
  rewrite <- (firstn_skipn k s). apply in_or_app. now right.
Qed.
Lemma firstn_le_sum (s : list R) k k' : Forall (fun x => 0 <= x) s -> (k <= k')%nat -> Rsum (firstn k s) <= Rsum (firstn k' s).
Proof.
  intros H; revert k k'; induction H as [|x s Hx Hs IH]; intros k k' Hk; destruct k, k'; simpl; try lra; try lia.
  - assert (0 <= Rsum (firstn k' s)); [|lra]. apply Rsum_nonneg, Forall_forall. intros y Hy.
    rewrite Forall_forall in Hs. apply Hs. rewrite <- (firstn_skipn k' s). apply in_or_app. now left.
  - specialize (IH k k'). assert (k <= k')%nat as Hk' by lia. specialize (IH Hk'). lra.
Qed.

Lemma filter_map_groups {A} (f : key -> list A) (F : list A -> num) ks g : NoDup ks -> In g ks -> f g <> [] ->
  value_at g (List.map (fun q => (fst q, F (snd q)))
    (filter (fun q => match snd q with [] => false | _ => true end) (List.map (fun k => (k, f k)) ks))) (F (f g)).
Proof.
  unfold value_at. induction ks as [|k ks IH]; intros Hd Hi Hne; [destruct Hi|]. inversion Hd; subst. cbn [map filter snd].
  destruct Hi as [->|Hi].
  - destruct (f g) as [|a l] eqn:E; [congruence|]. cbn [map filter fst snd].
    destruct (list_eq_dec string_dec g g); [|congruence]. f_equal. apply filter_none.
    intros x Hx. apply in_map_iff in Hx as [q [<- Hq]]. apply filter_In in Hq as [Hq _]. apply in_map_iff in Hq as [k [<- Hk]].
    simpl. destruct (list_eq_dec string_dec k g); congruence.
  - destruct (f k) eqn:E; [auto|]. cbn [map filter fst]. destruct (list_eq_dec string_dec k g) as [->|]; [contradiction|auto].
Qed.
Lemma xsum_Fin l : xsum (List.map Fin l) = Fin (Rsum l).
Proof. rewrite xsum_finite; [|apply Forall_map, Forall_forall; intros; split; discriminate].
  f_equal. f_equal. induction l; simpl; congruence. Qed.
Theorem top_k_value k n g child : nonneg_slice n g child -> n = O \/ k <> O ->
  value_at g (top_k k n child) (Fin (Rsum (firstn k (Rdesc (vals n g (distribution n child)))))).
Proof.
  intros H Hk. destruct (dist_vals_finite _ _ _ H) as [H1 H2]. destruct (Rdesc_spec _ H1) as (Hp & Hs & Hm).
  assert (xsum (nlargest k (vals n g (distribution n child))) = Fin (Rsum (firstn k (Rdesc (vals n g (distribution n child)))))) as <-.
  { unfold nlargest. rewrite Hm, firstn_map. apply xsum_Fin. }
  assert (In g (level_keys n (distribution n child))) as Hg by (rewrite level_keys_dist; apply slice_key, H).
  unfold top_k. destruct n as [|n].
  - unfold groupby_level. rewrite map_map. cbn [fst snd].
    apply (value_at_map (fun g0 => xsum (nlargest k (vals 0 g0 (distribution 0 child))))); auto. apply ksorted_NoDup, level_keys_sorted.
  - unfold groupby_level. apply (filter_map_groups (fun g0 => nlargest k (vals (S n) g0 (distribution (S n) child)))); auto.
    + apply ksorted_NoDup, level_keys_sorted.
    + unfold nlargest. rewrite Hm. rewrite H2 in Hp. pose proof (Permutation_length Hp) as HL.
      assert (shares (S n) g child <> []) as Hne.
      { intros E. destruct H as (_ & _ & Ht). pose proof (shares_sum _ _ _ Ht) as HS. rewrite E in HS. simpl in HS. lra. }
      destruct (Rdesc (vals (S n) g (distribution (S n) child))); simpl in HL.
      * destruct (shares (S n) g child); [congruence|discriminate].
      * destruct Hk as [|Hk]; [lia|]. destruct k; [congruence|discriminate].
Qed.
Theorem top_k_spec k n g child : nonneg_slice n g child -> n = O \/ k <> O ->
  exists top rest, Permutation (shares n g child) (top ++ rest) /\
    List.length top = Nat.min k (List.length (shares n g child)) /\
    (forall a b, In a top -> In b rest -> b <= a) /\
    value_at g (top_k k n child) (Fin (Rsum top)).
Proof.
  intros H Hk. destruct (dist_vals_finite _ _ _ H) as [H1 H2]. destruct (Rdesc_spec _ H1) as (Hp & Hs & Hm). rewrite H2 in Hp.
  set (s := Rdesc (vals n g (distribution n child))) in *.
  exists (firstn k s), (skipn k s). rewrite firstn_skipn. repeat split.
  - now symmetry.
  - rewrite firstn_length. f_equal. now apply Permutation_length.
  - intros a b Ha Hb. eapply rsorted_app; eauto.
  - now apply top_k_value.
Qed.
Theorem top_k_best k n g child x : nonneg_slice n g child -> value_at g (top_k k n child) (Fin x) -> n = O \/ k <> O ->
  forall a b, Permutation (shares n g child) (a ++ b) -> (List.length a <= k)%nat -> Rsum a <= x.
Proof.
  intros H Hv Hk a b Hp' Hl. pose proof (value_at_fun _ _ _ _ Hv (top_k_value k n g child H Hk)) as E. injection E as ->.
  destruct (dist_vals_finite _ _ _ H) as [H1 H2]. destruct (Rdesc_spec _ H1) as (Hp & Hs & Hm). rewrite H2 in Hp.
  eapply Rle_trans; [apply (top_best _ a b Hs)|].
  - etransitivity; eauto.
  - apply firstn_le_sum; auto. eapply Permutation_Forall; [symmetry; exact Hp|]. now apply shares_nonneg.
Qed.
Theorem top_k_monotone k k' n g child x y : nonneg_slice n g child -> n = O \/ k <> O -> (k <= k')%nat ->
  value_at g (top_k k n child) (Fin x) -> value_at g (top_k k' n child) (Fin y) -> x <= y.
Proof.
  intros H Hk Hkk Hx Hy. assert (n = O \/ k' <> O) as Hk' by (destruct Hk; [auto|right; lia]).
  pose proof (value_at_fun _ _ _ _ Hx (top_k_value k n g child H Hk)) as E. injection E as ->.
  pose proof (value_at_fun _ _ _ _ Hy (top_k_value k' n g child H Hk')) as E. injection E as ->.
  destruct (dist_vals_finite _ _ _ H) as [H1 H2]. destruct (Rdesc_spec _ H1) as (Hp & Hs & Hm). rewrite H2 in Hp.
  apply firstn_le_sum; auto. eapply Permutation_Forall; [symmetry; exact Hp|]. now apply shares_nonneg.
Qed.
Theorem top_k_all k n g child : nonneg_slice n g child -> (List.length (nums n g child) <= k)%nat -> n = O \/ k <> O ->
  value_at g (top_k k n child) (Fin 1).
Proof.
  intros H Hl Hk. pose proof (top_k_value k n g child H Hk) as HV.
  destruct (dist_vals_finite _ _ _ H) as [H1 H2]. destruct (Rdesc_spec _ H1) as (Hp & Hs & Hm). rewrite H2 in Hp.
  rewrite firstn_all2 in HV.
  - rewrite (Rsum_perm _ _ Hp), shares_sum in HV; [exact HV|apply H].
  - rewrite (Permutation_length Hp), shares_length. exact Hl.
Qed.

(** Nxx *)
Lemma cumsum_desc acc l : desc l ->
  filter (fun c => negb (is_nan c)) (cumsum_list (Fin acc) l) = List.map Fin (prefix_sums acc (finite_values l)) /\
  (forall share, List.length (filter (fun c => xlt c (Fin share)) (cumsum_list (Fin acc) l)) =
     List.length (filter (fun c => if Rlt_dec c share then true else false) (prefix_sums acc (finite_values l)))).
Proof.
  intros H; revert acc; induction H as [l Hl|x l Hd IH Hx]; intros acc.
  - induction Hl; subst; simpl; auto.
  - destruct (IH (acc + x)) as [E1 E2]. simpl. rewrite E1. split; [reflexivity|]. intros share. specialize (E2 share).
    destruct (Rlt_dec (acc + x) share); simpl; now rewrite E2.
Qed.
Definition count_below (share acc : R) (s : list R) : nat :=
  List.length (filter (fun c => if Rlt_dec c share then true else false) (prefix_sums acc s)).
(** nonnegative summands: the count is the position of the first prefix sum that reaches the share *)
Lemma count_below_spec share acc s : Forall (fun x => 0 <= x) s -> acc < share -> share <= acc + Rsum s ->
  let c := count_below share acc s in
  (c < List.length s)%nat /\ acc + Rsum (firstn c s) < share /\ share <= acc + Rsum (firstn (S c) s).
Proof.
  intros Hn; revert acc; induction Hn as [|x s Hx Hs IH]; intros acc Ha Hs'; [simpl in Hs'; lra|].
  unfold count_below. cbn [prefix_sums filter]. destruct (Rlt_dec (acc + x) share) as [Hlt|Hge].
  - destruct (IH (acc + x)) as (H1 & H2 & H3); [assumption|simpl in Hs'; lra|]. fold (count_below share (acc + x) s).
    cbn [List.length]. change (List.length (filter _ (prefix_sums (acc + x) s))) with (count_below share (acc + x) s).
    cbn [firstn Rsum] in *. repeat split; [lia|lra|]. destruct s; simpl in *; lra.
  - assert (filter (fun c => if Rlt_dec c share then true else false) (prefix_sums (acc + x) s) = []) as ->.
    { apply filter_none. intros y Hy. destruct (prefix_sums_sorted (acc + x) s Hs) as [_ HF]. rewrite Forall_forall in HF.
      specialize (HF y Hy). simpl in HF. destruct (Rlt_dec y share); [lra|reflexivity]. }
    simpl. repeat split; [lia|lra|]. simpl in *. lra.
Qed.
Theorem nxx_spec share n g child : nonneg_slice n g child -> 0 < share <= 1 ->
  exists N, value_at g (nxx share n child) (Fin (INR N)) /\
    (exists top rest, Permutation (shares n g child) (top ++ rest) /\ List.length top = N /\ share <= Rsum top) /\
    (forall a b, Permutation (shares n g child) (a ++ b) -> share <= Rsum a -> (N <= List.length a)%nat).
Proof.
  intros H [Hs0 Hs1]. destruct (dist_vals_finite _ _ _ H) as [H1 H2]. destruct (Rdesc_spec _ H1) as (Hp & Hs & Hm). rewrite H2 in Hp.
  set (s := Rdesc (vals n g (distribution n child))) in *.
  assert (Forall (fun x => 0 <= x) s) as Hn.
  { eapply Permutation_Forall; [symmetry; exact Hp|]. now apply shares_nonneg. }
  assert (Rsum s = 1) as HS by (rewrite (Rsum_perm _ _ Hp); apply shares_sum, H).
  destruct (count_below_spec share 0 s Hn Hs0) as (Hc & Hc1 & Hc2); [lra|]. set (c := count_below share 0 s) in *.
  exists (S c). split; [|split].
  - replace (Fin (INR (S c))) with (nxx_col share (vals n g (distribution n child))).
    + apply groupby_value. rewrite level_keys_dist. apply slice_key, H.
    + unfold nxx_col. do 2 f_equal. rewrite (proj2 (cumsum_desc 0 _ (sort_desc_desc _ H1)) share).
      change (finite_values (sort_desc (vals n g (distribution n child)))) with s.
      change (List.length _) with c at 1. lia.
  - exists (firstn (S c) s), (skipn (S c) s). rewrite firstn_skipn. repeat split.
    + now symmetry.
    + rewrite firstn_length. lia.
    + lra.
  - intros a b Hab Ha. destruct (le_lt_dec (S c) (List.length a)) as [|Hlt]; auto. exfalso.
    assert (Rsum a <= Rsum (firstn (List.length a) s)) as T.
    { apply (top_best _ a b Hs). etransitivity; eauto. }
    pose proof (firstn_le_sum s (List.length a) c Hn). assert (List.length a <= c)%nat as L by lia. specialize (H0 L). lra.
Qed.
