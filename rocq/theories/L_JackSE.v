(** Jackknife standard errors and confidence intervals. *)
From Coq Require Import Reals List Bool String Arith Lia Lra Permutation ZArith.
From Verif Require Import M_Num M_Frame M_Ops M_Slices S_Slices M_Leaf S_Leaf M_Jackknife S_Jackknife L_Frame L_OpsA L_OpsB L_OpsC L_Leaf L_Slices L_Jackknife L_Jackknife2 L_Jackknife3.
Import ListNotations.
Open Scope R_scope.

Lemma count_Fin (l : list R) : count_present (List.map Fin l) = List.length l.
Proof. unfold count_present. induction l; simpl; auto. Qed.
Lemma xsum_map_Fin (l : list R) : xsum (List.map Fin l) = Fin (Rsum l).
Proof. rewrite <- (map_id l) at 2. apply (xsum_Fin (fun x => x)). Qed.
Lemma len_pos l : (1 <= List.length l)%nat -> 0 < len l.
Proof. intros H. unfold len. apply lt_0_INR. lia. Qed.
Lemma xvar_Fin (l : list R) : (2 <= List.length l)%nat -> xvar (List.map Fin l) 1 = Fin (spread l / (len l - 1)).
Proof.
  intros H. assert (1 < len l) as H1 by (unfold len; apply (lt_INR 1); lia). unfold xvar. rewrite count_Fin.
  destruct (Z.leb_spec (Z.of_nat (List.length l)) 1); [lia|]. unfold xmean. rewrite count_Fin, xsum_map_Fin.
  rewrite xdiv_fin by (fold (len l); lra). rewrite map_map. fold (len l). fold (avg l).
  change (xdiv (xsum (List.map (fun x => Fin ((x - avg l) * (x - avg l))) l)) (Fin (len l - 1)) = Fin (spread l / (len l - 1))).
  rewrite xsum_Fin. apply xdiv_fin. lra.
Qed.
Lemma spread_nonneg l : 0 <= spread l.
Proof. apply Rsum_nonneg. apply Forall_forall. intros x H. apply in_map_iff in H as [y [<- _]]. exact (Rle_0_sqr (y - avg l)). Qed.
Lemma jk_formula l : (2 <= List.length l)%nat ->
  jk_stderr (List.map Fin l) = Fin (sqrt ((len l - 1) / len l * spread l)).
Proof.
  intros H. assert (1 < len l) as H1 by (unfold len; apply (lt_INR 1); lia). pose proof (spread_nonneg l) as Hs.
  unfold jk_stderr, std_of, dof_of. rewrite xvar_Fin, count_Fin by assumption.
  replace (IZR (Z.of_nat (List.length l) - 1 + 1)) with (len l) by (unfold len; rewrite INR_IZR_INZ; f_equal; lia).
  replace (IZR (Z.of_nat (List.length l) - 1)) with (len l - 1) by (rewrite minus_IZR, <- INR_IZR_INZ; reflexivity).
  assert (0 <= spread l / (len l - 1)) as Hq by (apply Rmult_le_pos; auto; left; apply Rinv_0_lt_compat; lra).
  rewrite !xsqrt_fin by lra. cbn [xmul]. assert (0 < sqrt (len l)) as Hn by (apply sqrt_lt_R0; lra). rewrite xdiv_fin by lra. f_equal.
  apply Rsqr_inj.
  - apply Rmult_le_pos; [apply Rmult_le_pos; [apply sqrt_pos|lra]|left; now apply Rinv_0_lt_compat].
  - apply sqrt_pos.
  - assert (0 <= (len l - 1) / len l * spread l) as HH by (apply Rmult_le_pos; auto; apply Rmult_le_pos; [lra|left; apply Rinv_0_lt_compat; lra]).
    rewrite (Rsqr_sqrt _ HH). unfold Rdiv. rewrite !Rsqr_mult. rewrite (Rsqr_sqrt (spread l * / (len l - 1))) by exact Hq. rewrite Rsqr_inv'.
    rewrite Rsqr_sqrt by lra. unfold Rsqr. field. lra.
Qed.
Lemma jk_too_few reps : (count_present reps < 2)%nat -> jk_stderr reps = NaN.
Proof.
  intros H. unfold jk_stderr, std_of, xvar. destruct (Z.leb_spec (Z.of_nat (count_present reps)) 1); [|lia]. reflexivity.
Qed.
Lemma Rsum_zero l : Forall (fun x => 0 <= x) l -> Rsum l = 0 -> Forall (fun x => x = 0) l.
Proof.
  induction 1 as [|x l Hx Hl IH]; intros H; constructor; simpl in H; pose proof (Rsum_nonneg l Hl); [lra|]. apply IH. lra.
Qed.
Lemma Rsum_const {A} (c : R) (l : list A) : Rsum (List.map (fun _ => c) l) = INR (List.length l) * c.
Proof. induction l as [|x l IH]; [simpl; ring|]. cbn [map Rsum List.length]. rewrite S_INR, IH. ring. Qed.
Lemma spread_zero l : spread l = 0 <-> forall x y, In x l -> In y l -> x = y.
Proof.
  split.
  - intros H. assert (forall x, In x l -> x = avg l) as HH.
    { intros x Hx. unfold spread in H. apply Rsum_zero in H.
      - rewrite Forall_forall in H. assert ((x - avg l) * (x - avg l) = 0) as E by (apply H; apply in_map_iff; exists x; auto). apply Rmult_integral in E. lra.
      - apply Forall_forall. intros z Hz. apply in_map_iff in Hz as [w [<- _]]. exact (Rle_0_sqr (w - avg l)). }
    intros x y Hx Hy. rewrite (HH x Hx). symmetry. now apply HH.
  - intros H. destruct l as [|a l]; [reflexivity|]. assert (forall x, In x (a :: l) -> x = a) as Ha by (intros x Hx; apply H; simpl; auto).
    assert (avg (a :: l) = a) as Eavg.
    { unfold avg. replace (Rsum (a :: l)) with (Rsum (List.map (fun _ => a) (a :: l))).
      - rewrite Rsum_const. unfold len. field. apply not_0_INR. discriminate.
      - f_equal. rewrite <- (map_id (a :: l)) at 2. apply map_ext_in. intros x Hx. symmetry. now apply Ha. }
    unfold spread. rewrite Eavg. replace (List.map (fun x => (x - a) * (x - a)) (a :: l)) with (List.map (fun _ : R => 0) (a :: l)).
    + rewrite Rsum_const. ring.
    + apply map_ext_in. intros x Hx. rewrite (Ha x Hx). ring.
Qed.
Lemma jk_zero l : (2 <= List.length l)%nat -> (jk_stderr (List.map Fin l) = Fin 0 <-> forall x y, In x l -> In y l -> x = y).
Proof.
  intros H. rewrite jk_formula by assumption. rewrite <- spread_zero. assert (1 < len l) as H1 by (unfold len; apply (lt_INR 1); lia).
  pose proof (spread_nonneg l). assert (0 < (len l - 1) / len l) as Hc by (apply Rmult_lt_0_compat; [lra|apply Rinv_0_lt_compat; lra]). split.
  - intros E. injection E as E. apply sqrt_eq_0 in E; nra.
  - intros ->. rewrite Rmult_0_r, sqrt_0. reflexivity.
Qed.
(** replicates of a mean *)
Lemma Rsum_affine a b l : Rsum (List.map (fun x => a * x + b) l) = a * Rsum l + len l * b.
Proof. unfold len. induction l as [|x l IH]; [simpl; ring|]. cbn [map Rsum List.length]. rewrite S_INR, IH. ring. Qed.
Lemma spread_affine a b l : (1 <= List.length l)%nat -> spread (List.map (fun x => a * x + b) l) = a * a * spread l.
Proof.
  intros H. pose proof (len_pos l H). unfold spread. assert (avg (List.map (fun x => a * x + b) l) = a * avg l + b) as ->.
  { unfold avg. rewrite Rsum_affine. unfold len at 2. rewrite map_length. fold (len l). field. lra. }
  rewrite map_map, <- Rsum_scal, map_map. f_equal. apply map_ext. intros x. ring.
Qed.
Lemma len_map (h : R -> R) l : len (List.map h l) = len l. Proof. unfold len. now rewrite map_length. Qed.
Lemma jk_mean l : (2 <= List.length l)%nat ->
  jk_stderr (List.map (fun x => Fin ((Rsum l - x) / (len l - 1))) l) = Fin (sqrt (spread l / (len l - 1) / len l)).
Proof.
  intros H. assert (1 < len l) as H1 by (unfold len; apply (lt_INR 1); lia).
  replace (List.map (fun x => Fin ((Rsum l - x) / (len l - 1))) l) with
    (List.map Fin (List.map (fun x => - / (len l - 1) * x + Rsum l / (len l - 1)) l)).
  - rewrite jk_formula by (rewrite map_length; assumption). rewrite spread_affine by lia. rewrite len_map.
    f_equal. apply (f_equal sqrt). field. lra.
  - rewrite map_map. apply map_ext. intros x. f_equal. field. lra.
Qed.

(** confidence intervals *)
Lemma ci_formula ppf c p se dof z : ppf ((1 + c) / 2) dof = Fin z ->
  ci ppf c (Fin p) (Fin se) dof = (Fin (p - se * z), Fin (se * z + p)).
Proof. intros H. unfold ci, half_width. rewrite H. reflexivity. Qed.

(** the standard error of a mean, one row per unit *)
Definition mean_tree (v : string) : mtree := TBinary xdiv (TLeaf (agg_sum v)) (TLeaf (agg_count v)).
Lemma slice_nil df : slice [] [] df = df. Proof. unfold slice. induction df; simpl; auto. now rewrite IHdf. Qed.
Lemma mean_tree_value v rows : compute_on (mean_tree v) [] rows = Some [([], agg_mean v rows)].
Proof. unfold mean_tree. cbn. rewrite slice_nil. reflexivity. Qed.
Lemma mean_leaf_value v rows : compute_on (TLeaf (agg_mean v)) [] rows = Some [([], agg_mean v rows)].
Proof. cbn. unfold compute_leaf. cbn [group_keys map]. now rewrite slice_nil. Qed.
Lemma units_distinct u df : forall seen, NoDup (List.map (fun r => lab r u) df) -> (forall r, In r df -> ~ In (lab r u) seen) ->
  units_from u seen df = List.map (fun r => lab r u) df.
Proof.
  induction df as [|r df IH]; intros seen HN Hs; auto. cbn [units_from map]. inversion HN as [|? ? H1 H2]; subst.
  destruct (in_dec _ (lab r u) seen) as [H|H]; [destruct (Hs r (or_introl eq_refl) H)|]. f_equal. apply IH; auto.
  intros q Hq [E|E]; [|apply (Hs q (or_intror Hq) E)]. apply H1. rewrite E. now apply (in_map (fun r => lab r u)).
Qed.
Lemma without_other u x df : (forall r, In r df -> lab r u <> Some x) -> without u x df = df.
Proof.
  intros H. unfold without. induction df as [|r df IH]; auto. cbn [filter]. rewrite IH by (intros; apply H; now right).
  specialize (H r (or_introl eq_refl)). destruct (lab r u) as [y|]; auto. destruct (string_dec y x); congruence.
Qed.
Lemma without_one u df r x : NoDup (List.map (fun r => lab r u) df) -> In r df -> lab r u = Some x -> Permutation df (r :: without u x df).
Proof.
  intros HN Hr Hx. apply in_split in Hr as [a [b ->]]. rewrite map_app in HN. cbn [map] in HN. rewrite Hx in HN.
  pose proof (NoDup_remove_2 _ _ _ HN) as H2. unfold without. rewrite filter_app. cbn [filter]. rewrite Hx. destruct (string_dec x x); [|congruence].
  fold (without u x a). fold (without u x b). rewrite !without_other.
  - symmetry. apply Permutation_middle.
  - intros q Hq E. apply H2. apply in_app_iff. right. rewrite <- E. now apply (in_map (fun r => lab r u)).
  - intros q Hq E. apply H2. apply in_app_iff. left. rewrite <- E. now apply (in_map (fun r => lab r u)).
Qed.
Lemma agg_mean_Fin v a rows : (forall r, In r rows -> val r v = Fin (a r)) -> rows <> [] ->
  agg_mean v rows = Fin (avg (List.map a rows)).
Proof.
  intros Ha Hne. unfold agg_mean, column. assert (List.map (fun r => val r v) rows = List.map Fin (List.map a rows)) as ->.
  { rewrite map_map. now apply map_ext_in. }
  unfold xmean. rewrite xsum_map_Fin, count_Fin. apply xdiv_fin. rewrite map_length. apply not_0_INR. destruct rows; [congruence|discriminate].
Qed.
Lemma direct_mean_row t v u df (a : drow -> R) reps : (forall rows, compute_on t [] rows = Some [([], agg_mean v rows)]) ->
  NoDup (List.map (fun r => lab r u) df) -> (forall r, In r df -> lab r u <> None) ->
  (forall r, In r df -> val r v = Fin (a r)) -> (2 <= List.length df)%nat -> direct_replicates t [] u df = Some reps ->
  direct_row reps [] = List.map (fun x => Fin ((Rsum (List.map a df) - x) / (len (List.map a df) - 1))) (List.map a df) /\ reps <> [].
Proof.
  intros Ht HN Hl Ha H2 HD. unfold direct_replicates in HD. destruct (Nat.ltb _ 2); [discriminate|]. injection HD as <-.
  cbn [loo_units]. unfold units_of. rewrite units_distinct by (auto; simpl; tauto).
  assert (forall l, (forall r, In r l -> In r df) -> 
    flat_map (fun x => match compute_on t [] (loo_sample [] u df x) with Some r => [r] | None => [] end) (List.map (fun r => lab r u) l) =
    List.map (fun r => [([] : list string, Fin ((Rsum (List.map a df) - a r) / (len (List.map a df) - 1)))]) l) as HF.
  { induction l as [|r l IH]; intros Hi; auto. cbn [map flat_map]. rewrite IH by (intros; apply Hi; now right). rewrite Ht. cbn [app]. f_equal.
    assert (In r df) as Hr by (apply Hi; now left). destruct (lab r u) as [x|] eqn:Ex; [|destruct (Hl r Hr Ex)].
    cbn [loo_sample]. rewrite is_unit_without. pose proof (without_one u df r x HN Hr Ex) as HP.
    rewrite (agg_mean_Fin v a).
    - do 3 f_equal. pose proof (Permutation_map a HP) as HP'. pose proof (Rsum_perm _ _ HP') as E1. cbn [map Rsum] in E1.
      unfold avg. assert (len (List.map a df) = len (List.map a (without u x df)) + 1) as E2.
      { unfold len. rewrite !map_length, (Permutation_length HP). cbn [List.length]. now rewrite S_INR. }
      rewrite E1, E2. f_equal; [ring|f_equal; ring].
    - intros q Hq. apply Ha. now apply filter_In in Hq.
    - intros E. rewrite E in HP. apply Permutation_length in HP. simpl in HP. lia. }
  rewrite HF by auto. split.
  - unfold direct_row. rewrite !map_map. apply map_ext. intros r. reflexivity.
  - destruct df; [simpl in H2; lia|discriminate].
Qed.
Lemma jk_mean_result v u df (a : drow -> R) : NoDup (List.map (fun r => lab r u) df) -> (forall r, In r df -> lab r u <> None) ->
  (forall r, In r df -> val r v = Fin (a r)) -> (2 <= List.length df)%nat ->
  let l := List.map a df in let answer := Some [([] : list string, Fin (avg l), Fin (sqrt (spread l / (len l - 1) / len l)))] in
  jackknife_fast (mean_tree v) [] u df = answer /\ jackknife_direct (TLeaf (agg_mean v)) [] u df = answer.
Proof.
  intros HN Hl Ha H2 l answer.
  assert (List.length (units_of u df) = List.length df) as HU.
  { unfold units_of. rewrite units_distinct by (auto; simpl; tauto). apply map_length. }
  assert (forall t, (forall rows, compute_on t [] rows = Some [([], agg_mean v rows)]) -> jackknife_direct t [] u df = answer) as HD.
  { intros t Ht. unfold jackknife_direct. rewrite Ht. destruct (direct_replicates t [] u df) as [reps|] eqn:ED.
    - destruct (direct_mean_row t v u df a reps Ht HN Hl Ha H2 ED) as [HR Hne]. destruct reps as [|r0 reps]; [congruence|].
      cbn [map fst snd]. rewrite HR, jk_mean by (rewrite map_length; lia). unfold answer. rewrite (agg_mean_Fin v a); auto. intros ->. simpl in H2. lia.
    - unfold direct_replicates in ED. destruct (Nat.ltb_spec (List.length (units_of u df)) 2); [lia|discriminate]. }
  split; [|apply HD, mean_leaf_value]. rewrite <- (HD (mean_tree v) (mean_tree_value v)).
  apply results_agree.
  - simpl. auto.
  - simpl. auto.
  - simpl. split; exists v; auto. left. split; auto. apply Forall_forall. intros r Hr. rewrite Ha by assumption. split; discriminate.
  - apply Forall_forall. intros r Hr c Hc. simpl in Hc. destruct Hc as [<-|[]]. now apply Hl.
  - intros k x Ho. split.
    + assert (without u x (slice [] k df) <> []) as Hne; [|simpl; auto]. destruct Ho as [r [Hr [Hk Hx]]]. simpl in Hk. injection Hk as <-.
      rewrite slice_nil.
      pose proof (without_one u df r x HN Hr Hx) as HP. intros E. rewrite E in HP. apply Permutation_length in HP. simpl in HP. lia.
    + eexists. apply mean_tree_value.
  - lia.
Qed.
