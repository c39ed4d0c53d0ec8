(** CUPED: the join with theta, and the adjusted values of the query and of pandas. *)
From Coq Require Import Reals List Bool String Arith ZArith Permutation Lia Lra FunctionalExtensionality.
From Verif Require Import M_Num M_Frame L_Frame M_Ops S_Ops M_Leaf S_Leaf L_Leaf L_Leaf2 L_Slices M_SqlGlobal L_SqlGlobal M_SqlLeaf S_SqlLeaf L_SqlLeaf L_SqlLeaf2 M_SqlOps S_SqlOps L_SqlOps L_SqlOps7 S_RowOrder L_RowOrder M_SqlList S_SqlList M_SqlMHList M_Adjust L_Adjust M_SqlAdjust S_SqlAdjust L_SqlAdjust1 L_SqlAdjust2 L_SqlAdjust3 L_SqlAdjust4.
Import ListNotations.
Open Scope string_scope.
Open Scope list_scope.

(** *** absolute changes do not see a constant per slice of split_by *)
Lemma lookup_first {A} (dec : forall a b : A, {a = b} + {a <> b}) (h : list string -> list string) (v w : list string -> num) K ks :
  (lookup K (List.map (fun k => (h k, v k)) ks) = NaN /\ lookup K (List.map (fun k => (h k, w k)) ks) = NaN) \/
  exists k, In k ks /\ h k = K /\ lookup K (List.map (fun k => (h k, v k)) ks) = v k /\ lookup K (List.map (fun k => (h k, w k)) ks) = w k.
Proof.
  induction ks as [|k ks IH]; [left; split; reflexivity|]. cbn [List.map lookup]. destruct (key_eqb (h k) K) eqn:E.
  - right. exists k. apply key_eqb_eq in E. split; [now left|auto].
  - destruct IH as [H|(k' & H1 & H2)]; [left; exact H|right; exists k'; split; [now right|exact H2]].
Qed.
Lemma absolute_shift n nc base incl0 (ks : list (list string)) (v w : list string -> num) (d : list string -> R) :
  (forall k, In k ks -> (n <= List.length k)%nat) ->
  (forall k, In k ks -> (v k = NaN /\ w k = NaN) \/ exists u, v k = Fin u /\ w k = Fin (u + d (firstn n k))%R) ->
  absolute_change n nc base incl0 (List.map (fun k => (k, v k)) ks) = absolute_change n nc base incl0 (List.map (fun k => (k, w k)) ks).
Proof.
  intros HL HR. unfold absolute_change, compare_with_base. set (bs := filter (fun k => key_eqb (cond_of n nc k) base) ks).
  assert (forall f : list string -> num, xs n nc base (List.map (fun k => (k, f k)) ks) = match bs with [] => None | _ => Some (List.map (fun k => (drop_cond n nc k, f k)) bs) end) as HX.
  { intros f. unfold xs. rewrite L_SqlLeaf2.filter_map_comm. cbn [fst]. fold bs. destruct bs; [reflexivity|]. cbn [List.map]. now rewrite map_map. }
  rewrite !HX. destruct bs as [|b0 bs0] eqn:Eb; [reflexivity|]. rewrite <- Eb. assert (forall k, In k bs -> In k ks) as Hbs by (intros k Hk; apply filter_In in Hk; tauto). clearbody bs. clear Eb b0 bs0 HX. f_equal. rewrite !map_map. cbn [fst snd].
  assert (List.map (fun k => (k, xsub (v k) (lookup (drop_cond n nc k) (List.map (fun k => (drop_cond n nc k, v k)) bs)))) ks =
          List.map (fun k => (k, xsub (w k) (lookup (drop_cond n nc k) (List.map (fun k => (drop_cond n nc k, w k)) bs)))) ks) as ->; [|reflexivity].
  apply map_ext_in. intros k Hk. f_equal. destruct (lookup_first (list_eq_dec string_dec) (drop_cond n nc) v w (drop_cond n nc k) bs) as [[-> ->]|(k' & Hk' & Ed & -> & ->)].
  - unfold xsub. now destruct (v k), (w k).
  - assert (firstn n k' = firstn n k) as Ef.
    { apply (f_equal (firstn n)) in Ed. unfold drop_cond in Ed. rewrite !firstn_app, !firstn_firstn, !Nat.min_id, !firstn_length_le, Nat.sub_diag in Ed by auto. cbn [firstn] in Ed. now rewrite !app_nil_r in Ed. }
    destruct (HR k Hk) as [[-> ->]|(u & -> & ->)]; [reflexivity|]. destruct (HR k' (Hbs k' Hk')) as [[-> ->]|(u' & -> & ->)]; [reflexivity|]. rewrite Ef. cbn. f_equal. lra.
Qed.

(** *** values *)
Lemma theta_cases y x rows : complete (Col y) rows -> complete (Col x) rows ->
  theta y x rows = if le_lt_dec (List.length rows) 1 then NaN else if Req_EM_T (cross (at_ (Col x)) (at_ (Col x)) rows) 0 then NaN else Fin (slope (at_ (Col x)) (at_ (Col y)) rows).
Proof.
  intros Hy Hx. unfold theta, theta_metric. cbn [evalt]. destruct (le_lt_dec (List.length rows) 1) as [L|L]; [rewrite var_one by assumption; apply div_nan|].
  rewrite var_fin, cov_fin by assumption. apply lt_INR in L. cbn in L. fold (size rows) in L. destruct (Req_EM_T (cross (at_ (Col x)) (at_ (Col x)) rows) 0) as [E|N].
  - rewrite E, (cross_zero y x rows E). cbn [xdiv]. unfold Rdiv. rewrite Rmult_0_l. destruct (Req_EM_T 0 0); [|lra]. unfold inf_times. destruct (Req_EM_T 0 0); [reflexivity|lra].
  - assert (size rows - 1 <> 0)%R as S by lra. rewrite xdiv_fin; [f_equal; unfold slope; field; auto|]. intros E. apply N. apply Rmult_eq_reg_r with (/ (size rows - 1))%R; [unfold Rdiv in E; lra|now apply Rinv_neq_0_compat].
Qed.
Lemma theta_perm y x A B : Permutation A B -> theta y x A = theta y x B.
Proof.
  intros HP. unfold theta, theta_metric. cbn [evalt]. pose proof (leaf_perm (Lf (LCov (Col y) (Col x) 1 None None)) A B I HP) as E1. pose proof (leaf_perm (Lf (LVar (Col x) 1 None)) A B I HP) as E2.
  cbn [pandas_leaf] in E1, E2. now rewrite E1, E2.
Qed.
Lemma scaled_mean b x rows : complete (Col x) rows -> rows <> [] -> xmean (List.map (fun r => xmul (Fin b) (val r x)) rows) = Fin (b * mean_of (at_ (Col x)) rows).
Proof.
  intros Cx Hn. set (X := at_ (Col x)). unfold xmean.
  assert (F : List.map (fun r => xmul (Fin b) (val r x)) rows = List.map (fun r => Fin (b * X r)) rows).
  { apply map_ext_in. intros r Hr. unfold complete in Cx. rewrite Forall_forall in Cx. destruct (Cx r Hr) as [a Ha]. cbn in Ha. unfold X, at_. cbn [cellx]. now rewrite Ha. }
  rewrite F. assert (SM : xsum (List.map (fun r => Fin (b * X r)) rows) = Fin (b * sum_of X rows)).
  { clear. induction rows as [|r rs IH]; [cbn; f_equal; unfold sum_of; cbn; lra|]. cbn [List.map]. unfold xsum in *. cbn [fold_right is_nan]. rewrite IH. cbn [xadd]. f_equal. unfold sum_of. cbn. lra. }
  assert (CT : count_present (List.map (fun r => Fin (b * X r)) rows) = List.length rows).
  { clear. induction rows as [|r rs IH]; [reflexivity|]. unfold count_present in *. cbn [List.map filter is_nan negb List.length]. now rewrite IH. }
  rewrite SM, CT. pose proof (size_pos _ Hn) as P. unfold size in P. rewrite xdiv_fin by lra. f_equal. unfold mean_of, size. field. lra.
Qed.
Lemma nan_mean {A} (rows : list A) : xmean (List.map (fun _ => NaN) rows) = NaN.
Proof.
  unfold xmean. assert (count_present (List.map (fun _ : A => NaN) rows) = 0%nat) as -> by (induction rows; [reflexivity|exact IHrows]).
  assert (xsum (List.map (fun _ : A => NaN) rows) = Fin 0) as -> by (induction rows; [reflexivity|exact IHrows]).
  cbn. destruct (Req_EM_T 0 0); [|lra]. unfold inf_times. destruct (Req_EM_T 0 0); [reflexivity|lra].
Qed.

Section Values.
  Variables (s conds : list string) (y x th : string) (A : table).
  Hypothesis yx : y <> x.
  Hypothesis ty : th <> y.
  Hypothesis tx : th <> x.
  Hypothesis Hc : conds <> [].
  Hypothesis Cy : complete (Col y) A.
  Hypothesis Cx : complete (Col x) A.
  Notation X := (at_ (Col x)).
  Notation Y := (at_ (Col y)).
  Definition theta_of (t : table) (r : drow) : num := match row_key s r with Some k => theta y x (slice s k t) | None => NaN end.
  Definition with_theta (t : table) : table := List.map (fun r => set_val th (theta_of t r) r) t.
  Lemma with_theta_perm B : Permutation A B -> Permutation (with_theta A) (with_theta B).
  Proof.
    intros H. unfold with_theta. rewrite (map_ext (fun r => set_val th (theta_of A r) r) (fun r => set_val th (theta_of B r) r)); [now apply Permutation_map|].
    intros r. f_equal. unfold theta_of. destruct (row_key s r); [|reflexivity]. now apply theta_perm, slice_perm.
  Qed.
  Lemma split_key k : In k (group_keys (s ++ conds) A) -> exists k0 c, k = k0 ++ c /\ List.length k0 = List.length s /\ firstn (List.length s) k = k0 /\ slice (s ++ conds) k A <> [].
  Proof.
    intros Hk. assert (slice (s ++ conds) k A <> []) as Hn.
    { apply group_keys_In in Hk as [[E _]|[_ (r & Hr & Ek)]]; [exfalso; apply app_eq_nil in E as [_ E]; contradiction|]. apply slice_nonempty. eauto. }
    pose proof Hn as Hn'. apply slice_nonempty in Hn' as (r & _ & Ek). apply row_key_length in Ek. rewrite app_length in Ek.
    exists (firstn (List.length s) k), (skipn (List.length s) k). split; [now rewrite firstn_skipn|]. split; [rewrite firstn_length; lia|auto].
  Qed.
  Definition sql_adjusted_value (parse : string -> cond) (k : list string) : num := mval parse (cuped_metric y x) (slice (s ++ conds) k (with_theta A)).
  Definition pandas_adjusted_value (k : list string) : num :=
    let rows := slice (s ++ conds) k (centered s x A) in xsub (agg_mean y rows) (xmul (agg_mean x rows) (theta y x (slice s (firstn (List.length s) k) (centered s x A)))).
  Lemma values_differ parse : theta_name y = th -> forall k, In k (group_keys (s ++ conds) A) ->
    (sql_adjusted_value parse k = NaN /\ pandas_adjusted_value k = NaN) \/
    exists u, sql_adjusted_value parse k = Fin u /\
      pandas_adjusted_value k = Fin (u + slope X Y (slice s (firstn (List.length s) k) A) * mean_of X (slice s (firstn (List.length s) k) A))%R.
  Proof.
    intros Et k Hk. destruct (split_key k Hk) as (k0 & c & -> & L0 & E0 & Hn). rewrite E0. set (rows := slice (s ++ conds) (k0 ++ c) A) in *. set (full := slice s k0 A).
    assert (Hi : incl rows full) by (intros r Hr; unfold rows in Hr; rewrite slice_slice in Hr by assumption; apply slice_In in Hr; tauto).
    assert (Cyf : complete (Col y) full) by (apply slice_complete; exact Cy). assert (Cxf : complete (Col x) full) by (apply slice_complete; exact Cx).
    assert (Cyr : complete (Col y) rows) by (apply slice_complete; exact Cy). assert (Cxr : complete (Col x) rows) by (apply slice_complete; exact Cx).
    (* pandas *)
    assert (EP : pandas_adjusted_value (k0 ++ c) = xsub (Fin (mean_of Y rows)) (xmul (Fin (mean_of X rows - mean_of X full)%R) (theta y x full))).
    { unfold pandas_adjusted_value. cbv zeta. rewrite E0, !slice_centered. fold rows full. rewrite (cen_mean_y s y x yx A k0) by (assumption || exact Hi). rewrite (cen_mean_x s y x yx A k0) by (assumption || exact Hi). f_equal. f_equal.
      destruct (cen_complete s y x yx A k0 Cyf Cxf full (incl_refl _)) as [D1 D2]. rewrite !theta_cases by assumption. rewrite map_length. destruct (le_lt_dec (List.length full) 1); [reflexivity|].
      assert (EX : forall r, In r full -> X (cen s x A r) = (X r - center s x A k0)%R) by (intros r Hr; apply (cen_at_x s x A k0 Cxf r Hr)).
      assert (E1 : cross X X (List.map (cen s x A) full) = cross X X full).
      { rewrite cross_map. rewrite (cross_ext _ (fun r => (X r - center s x A k0)%R) _ (fun r => (X r - center s x A k0)%R)) by exact EX. apply cross_shift2. }
      rewrite E1. destruct (Req_EM_T _ _); [reflexivity|]. f_equal. unfold slope. rewrite E1. f_equal. rewrite cross_map.
      rewrite (cross_ext (fun r => Y (cen s x A r)) Y _ (fun r => (X r - center s x A k0)%R)); [|intros r Hr; apply (cen_at_y s y x yx A)|exact EX]. rewrite cross_sym, cross_shift. apply cross_sym. }
    (* the query *)
    assert (ES : sql_adjusted_value parse (k0 ++ c) = xsub (Fin (mean_of Y rows)) (xmean (List.map (fun r => xmul (theta y x full) (val r x)) rows))).
    { unfold sql_adjusted_value, cuped_metric, mean_metric. rewrite mval_op, !mval_leaf. cbn [num_op pandas_leaf].
      change (leaf_value (LMean (Col y) None)) with (fun rows => xmean (col_of (Col y) rows)). change (leaf_value (LMean (Times (Col (theta_name y)) (Col x)) None)) with (fun rows => xmean (col_of (Times (Col (theta_name y)) (Col x)) rows)). cbv beta.
      unfold with_theta. rewrite slice_map_set by (intros r; apply row_key_set). fold rows. unfold col_of. rewrite !map_map. f_equal.
      - rewrite <- (agg_mean_value y rows Cyr Hn). unfold agg_mean, column. f_equal. apply map_ext. intros r. cbn [cellx set_val val]. destruct (String.eqb_spec y th); [congruence|reflexivity].
      - f_equal. apply map_ext_in. intros r Hr. cbn [cellx set_val val]. rewrite Et, String.eqb_refl. destruct (String.eqb_spec x th); [congruence|]. f_equal. unfold theta_of.
        pose proof (Hi r Hr) as Hr'. apply slice_In in Hr' as [_ ->]. reflexivity. }
    rewrite EP, ES. destruct (theta_fin y x full Cyf Cxf) as [E|[b E]]; rewrite E.
    - left. split; [|reflexivity]. rewrite (map_ext (fun r => xmul NaN (val r x)) (fun _ => NaN)) by (intros r; now destruct (val r x)). rewrite nan_mean. reflexivity.
    - right. rewrite scaled_mean by assumption. rewrite xmul_fin, !xsub_fin. eexists. split; [reflexivity|]. f_equal.
      rewrite theta_cases in E by assumption. destruct (le_lt_dec _ _); [discriminate|]. destruct (Req_EM_T _ _); [discriminate|]. injection E as E. rewrite E. ring.
  Qed.
End Values.
