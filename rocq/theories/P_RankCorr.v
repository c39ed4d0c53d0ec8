(** C85: rank correlations depend on the order of the values only, are symmetric and lie in [-1, 1]. *)
From Coq Require Import Reals List Bool String Permutation Lia Lra.
From Verif Require Import M_Num M_Frame M_Leaf S_Leaf L_Leaf L_Leaf2 L_Leaf3 L_RowOrder M_RankCorr S_RankCorr L_RankCorr.
Import ListNotations.
Open Scope string_scope.
Open Scope R_scope.

(** Both results as C / (sqrt A * sqrt B), with C^2 <= A * B. *)
Lemma form m a b rows : m <> Pearson -> exists C A B, 0 <= A /\ 0 <= B /\ C ^ 2 <= A * B /\ correlation m a b None rows = Some (xdiv (Fin C) (Fin (sqrt A * sqrt B))) /\
  (A = 0 <-> ~ varies a (both_present a b rows)) /\ (B = 0 <-> ~ varies b (both_present a b rows)).
Proof.
  intros Hm. set (v := both_present a b rows).
  assert (forall c, c = a \/ c = b -> forall r, In r v -> cellx c r <> NaN) as HN by (intros c Hc r Hr; apply both_In in Hr as (_ & H1 & H2); destruct Hc; now subst).
  destruct m; [congruence| |].
  - exists (cross (rk a v) (rk b v) v), (cross (rk a v) (rk a v) v), (cross (rk b v) (rk b v) v).
    split; [apply cross_nonneg|]. split; [apply cross_nonneg|]. split; [apply cross_cauchy|]. split.
    + cbn [correlation]. rewrite spearman_value. fold v. destruct v; [|reflexivity]. f_equal. symmetry. unfold cross, wcross, sum_of. cbn [List.map Rsum]. rewrite sqrt_0, Rmult_0_l. apply xdiv_0.
    + assert (forall c, c = a \/ c = b -> cross (rk c v) (rk c v) v = 0 <-> ~ varies c v) as HV; [|split; apply HV; auto].
      intros c Hc. split.
      * intros E (r & q & Hr & Hq & H). pose proof (cross_varies (rk c v) v r q Hr Hq (rk_less c v r q (HN c Hc) Hr Hq H)). lra.
      * intros H. assert (forall r q, In r v -> In q v -> xlt (cellx c r) (cellx c q) = false) as HF.
        { intros r q Hr Hq. destruct (xlt (cellx c r) (cellx c q)) eqn:E; [|reflexivity]. exfalso. apply H. now exists r, q. }
        assert (forall r, In r v -> rk c v r = (size v + 1) / 2) as HK.
        { intros r Hr. rewrite rk_is. rewrite (count_ext _ (fun _ => false)) by (intros q Hq; now apply HF). rewrite (count_ext (fun q => tied _ _) (fun _ => true)) by (intros q Hq; unfold tied; now rewrite !HF).
          rewrite !count_sum. cbn iota. rewrite !sum_of_const. lra. }
        destruct v as [|r0 l] eqn:Ev; [reflexivity|]. rewrite <- Ev in *. rewrite (cross_ext _ (fun _ => (size v + 1) / 2) _ (fun _ => (size v + 1) / 2)) by exact HK.
        assert (0 < size v) by (apply size_pos; rewrite Ev; discriminate). unfold cross, wcross, wmean_of. rewrite !sum_of_const.
        replace ((size v + 1) / 2 - 1 * ((size v + 1) / 2) * size v / (1 * size v)) with 0 by (field; lra). lra.
  - exists (con a b v), (con a a v), (con b b v).
    split; [apply con_nonneg|]. split; [apply con_nonneg|]. split; [apply con_cauchy|]. split; [cbn [correlation]; now rewrite kendall_value|].
    assert (forall c, con c c v = 0 <-> ~ varies c v) as HV; [|split; apply HV].
    intros c. split.
    + intros E (r & q & Hr & Hq & H). pose proof (con_varies c v r q Hr Hq H). lra.
    + intros H. unfold con. rewrite (sum_of_ext _ (fun _ => 0)); [rewrite sum_of_const; lra|]. intros p Hp. apply pairs_In in Hp as [F S].
      assert (forall r q, In r v -> In q v -> xlt (cellx c r) (cellx c q) = false) as HF.
      { intros r q Hr Hq. destruct (xlt (cellx c r) (cellx c q)) eqn:E; [|reflexivity]. exfalso. apply H. now exists r, q. }
      unfold sgp, sg. rewrite !HF by assumption. lra.
Qed.

(** For every data, with ties, infinities and missing values: a number in [-1, 1], or NaN. *)
Theorem C85_bounds : forall m a b rows, m <> Pearson ->
  exists v, correlation m a b None rows = Some v /\ (v = NaN \/ exists x, v = Fin x /\ -1 <= x <= 1).
Proof.
  intros m a b rows Hm. destruct (form m a b rows Hm) as (C & A & B & HA & HB & HC & E & _). eexists. split; [exact E|].
  pose proof (corr_bound C A B) as H. unfold xdiv in *. destruct (Req_EM_T (sqrt A * sqrt B) 0) as [E0|N].
  - assert (A * B = 0) as E1 by (rewrite <- (sqrt_sqrt A), <- (sqrt_sqrt B) by assumption; replace (sqrt A * sqrt A * (sqrt B * sqrt B)) with ((sqrt A * sqrt B) * (sqrt A * sqrt B)) by ring; rewrite E0; ring).
    assert (C = 0) as EC by (apply sq_zero; lra). unfold inf_times. destruct (Req_EM_T C 0); [now left|contradiction].
  - right. eexists. split; [reflexivity|]. now apply H.
Qed.
Print Assumptions C85_bounds.
(** It is NaN exactly when one of the columns does not vary over the rows where both are present. *)
Theorem C85_defined : forall m a b rows, m <> Pearson ->
  (correlation m a b None rows = Some NaN <-> ~ varies a (both_present a b rows) \/ ~ varies b (both_present a b rows)).
Proof.
  intros m a b rows Hm. destruct (form m a b rows Hm) as (C & A & B & HA & HB & HC & E & VA & VB). rewrite <- VA, <- VB, E. split.
  - intros H. injection H as H. destruct (Req_EM_T (sqrt A * sqrt B) 0) as [E0|N]; [|unfold xdiv in H; destruct (Req_EM_T (sqrt A * sqrt B) 0); [contradiction|discriminate]].
    apply Rmult_integral in E0 as [E0|E0]; apply sqrt_eq_0 in E0; auto.
  - intros H. f_equal. assert (C = 0) as -> by (apply sq_zero; destruct H as [H|H]; rewrite H in HC; lra). assert (sqrt A * sqrt B = 0) as -> by (destruct H as [->| ->]; rewrite sqrt_0; ring). apply xdiv_0.
Qed.
(** All methods are symmetric, so the cache may use one result for both (C01, C02). *)
Theorem C85_symmetric : forall m a b rows, correlation m a b None rows = correlation m b a None rows.
Proof.
  intros [] a b rows; cbn [correlation]; f_equal.
  - change (xcorr a b rows = xcorr b a rows). unfold xcorr. cbn zeta. rewrite (both_swap a b). rewrite (xmul_comm (xsqrt _)). do 2 f_equal. apply map_ext. intros r. apply xmul_comm.
  - rewrite !spearman_value. rewrite (both_swap b a). destruct (both_present a b rows) as [|r l] eqn:E; [reflexivity|]. rewrite <- E. now rewrite cross_sym, Rmult_comm.
  - rewrite !kendall_value. rewrite (both_swap b a). now rewrite con_sym, Rmult_comm.
Qed.
(** Only the order of the values matters. *)
Theorem C85_order_only : forall m a a' b rows, m <> Pearson -> same_missing a a' rows -> ordered_alike a a' (both_present a b rows) ->
  correlation m a' b None rows = correlation m a b None rows.
Proof.
  intros m a a' b rows Hm HM HO. symmetry. destruct m; [congruence| |]; cbn [correlation]; f_equal.
  - apply spearman_ext; [symmetry; now apply both_same|now apply rk_alike|reflexivity].
  - rewrite !kendall_value. rewrite <- (both_same a a' b rows HM). set (v := both_present a b rows) in *. assert (ordered_alike b b v) as Hb by (intros r q _ _; reflexivity).
    now rewrite (con_alike a a' b b v), (con_alike a a' a a' v).
Qed.
(** So a strictly increasing function of a column does not change them. *)
Theorem C85_increasing : forall m a a' b rows (g : R -> R), m <> Pearson -> (forall x y, x < y -> g x < g y) ->
  complete a rows -> (forall r, In r rows -> cellx a' r = Fin (g (at_ a r))) -> correlation m a' b None rows = correlation m a b None rows.
Proof.
  intros m a a' b rows g Hm Hg Ha Hg'. unfold complete in Ha. rewrite Forall_forall in Ha. apply C85_order_only; [exact Hm| |].
  - intros r Hr. rewrite (Hg' r Hr). destruct (Ha r Hr) as [x ->]. split; discriminate.
  - intros r q Hr Hq. apply both_In in Hr as (Hr & _). apply both_In in Hq as (Hq & _). rewrite (Hg' r Hr), (Hg' q Hq). unfold at_. destruct (Ha r Hr) as [x ->]. destruct (Ha q Hq) as [y ->]. cbn.
    destruct (Rlt_dec x y) as [H|H], (Rlt_dec (g x) (g y)) as [H'|H']; try reflexivity; exfalso; [now apply H', Hg|].
    destruct (Req_EM_T x y) as [->|N]; [lra|]. assert (y < x) as H1 by lra. apply Hg in H1. lra.
Qed.
(** The reverse order of one column gives the opposite number. *)
Theorem C85_reversed : forall m a a' b rows, m <> Pearson -> same_missing a a' rows -> ordered_opposite a a' (both_present a b rows) ->
  correlation m a' b None rows = option_map xopp (correlation m a b None rows).
Proof.
  intros m a a' b rows Hm HM HO. destruct m; [congruence| |]; cbn [correlation option_map]; f_equal.
  - rewrite !spearman_value. rewrite <- (both_same a a' b rows HM). set (v := both_present a b rows) in *. destruct v as [|r l] eqn:Ev; [reflexivity|]. rewrite <- Ev in *.
    assert (0 < size v) as Hs by (apply size_pos; rewrite Ev; discriminate).
    assert (forall y, cross (rk a' v) y v = - cross (rk a v) y v) as HX.
    { intros y. rewrite (cross_ext _ (fun r => -1 * rk a v r + (size v + 1)) y y) by (auto; now apply rk_opposite). unfold cross. rewrite wcross_affine by (rewrite sum_of_1; lra). ring. }
    rewrite HX. rewrite (HX (rk a' v)), (cross_sym (rk a v) (rk a' v)), HX, Ropp_involutive. apply xdiv_neg; [apply cross_cauchy|apply cross_nonneg|apply cross_nonneg].
  - rewrite !kendall_value. rewrite <- (both_same a a' b rows HM). set (v := both_present a b rows) in *. destruct (con_opposite a a' b v HO) as [-> ->]. apply xdiv_neg; [apply con_cauchy|apply con_nonneg|apply con_nonneg].
Qed.
(** They are 1 when both columns order the rows alike, and -1 when the orders are opposite. *)
Theorem C85_agreement : forall m a b rows, m <> Pearson -> varies a (both_present a b rows) ->
  (ordered_alike a b (both_present a b rows) -> correlation m a b None rows = Some (Fin 1)) /\
  (ordered_opposite a b (both_present a b rows) -> correlation m a b None rows = Some (Fin (-1))).
Proof.
  intros m a b rows Hm (r & q & Hr & Hq & H). set (v := both_present a b rows) in *.
  assert (forall C, 0 < C -> xdiv (Fin C) (Fin (sqrt C * sqrt C)) = Fin 1 /\ xdiv (Fin (- C)) (Fin (sqrt C * sqrt C)) = Fin (-1)) as HD.
  { intros C HC. rewrite sqrt_sqrt by lra. cbn. destruct (Req_EM_T C 0); [lra|]. split; f_equal; field; lra. }
  assert (forall s, In s v -> cellx a s <> NaN) as HN by (intros s Hs; now apply both_In in Hs as (_ & H1 & H2)).
  destruct m; [congruence| |]; cbn [correlation]; rewrite ?spearman_value, ?kendall_value; fold v.
  - pose proof (cross_varies (rk a v) v r q Hr Hq (rk_less a v r q HN Hr Hq H)) as HP. split; intros HO.
    + pose proof (rk_alike a b v HO) as HR. destruct v as [|r0 l] eqn:Ev; [destruct Hr|]. rewrite <- Ev in *. f_equal.
      rewrite <- (cross_ext (rk a v) (rk a v) (rk a v) (rk b v) v) by auto. rewrite <- (cross_ext (rk a v) (rk b v) (rk a v) (rk b v) v) by auto. now apply HD.
    + pose proof (rk_opposite a b v HO) as HR. destruct v as [|r0 l] eqn:Ev; [destruct Hr|]. rewrite <- Ev in *. f_equal.
      assert (0 < size v) as Hs by (apply size_pos; rewrite Ev; discriminate).
      assert (forall y, cross (rk b v) y v = - cross (rk a v) y v) as HX.
      { intros y. rewrite (cross_ext _ (fun r => -1 * rk a v r + (size v + 1)) y y) by auto. unfold cross. rewrite wcross_affine by (rewrite sum_of_1; lra). ring. }
      rewrite (cross_sym (rk a v) (rk b v)), !HX. rewrite (cross_sym (rk a v) (rk b v)), HX, Ropp_involutive. now apply HD.
  - pose proof (con_varies a v r q Hr Hq H) as HP. split; intros HO; f_equal.
    + assert (ordered_alike a a v) as Ha by (intros s u _ _; reflexivity). rewrite <- (con_alike a a a b v Ha HO), <- (con_alike a b a b v HO HO). now apply HD.
    + destruct (con_opposite a b a v HO) as [E1 ->]. rewrite (con_sym a b), E1. now apply HD.
Qed.
(** Rows with a missing value do not count (as C21). *)
Theorem C85_pairwise : forall m a b rows, m <> Pearson -> correlation m a b None (both_present a b rows) = correlation m a b None rows.
Proof.
  intros m a b rows Hm. destruct m; [congruence| |]; cbn [correlation]; f_equal; unfold spearman, kendall; cbn zeta; now rewrite both_present_idem.
Qed.
(** Nor does the order of the rows matter (C69). *)
Theorem C85_row_order : forall m a b rows rows', m <> Pearson -> Permutation rows rows' -> correlation m a b None rows = correlation m a b None rows'.
Proof.
  intros m a b rows rows' Hm HP. pose proof (both_perm a b _ _ HP) as HV. destruct m; [congruence| |]; cbn [correlation]; f_equal.
  - unfold spearman. apply xcorr_perm. unfold ranked. etransitivity; [|apply Permutation_map, HV]. erewrite map_ext; [apply Permutation_refl|]. intros r. cbn beta. f_equal. 
    assert (forall c x, rank x (col_of c (both_present a b rows)) = rank x (col_of c (both_present a b rows'))) as HR.
    { intros c x. unfold rank, col_of. now rewrite !count_map, !(count_perm' _ _ _ HV). }
    now rewrite !HR.
  - rewrite !kendall_value. now rewrite !(con_perm _ _ _ _ HV).
Qed.
(** With weights they are refused. *)
Theorem C85_weighted : forall m a b w rows, correlation m a b (Some w) rows = None <-> m <> Pearson.
Proof. intros [] a b w rows; cbn; split; congruence. Qed.

(** ** Cases *)
Definition obs3 (x y : R) : drow := Row (fun _ => None) (fun c => if string_dec c "x" then Fin x else Fin y).
Definition three := [obs3 1 1; obs3 2 30; obs3 3 20].
Example C85_case : kendall (Col "x") (Col "y") three = Fin (1 / 3) /\ varies (Col "x") (both_present (Col "x") (Col "y") three).
Proof.
  assert (both_present (Col "x") (Col "y") three = three) as E by reflexivity. split.
  - rewrite kendall_value, E.
    assert (con (Col "x") (Col "y") three = 1 /\ con (Col "x") (Col "x") three = 3 /\ con (Col "y") (Col "y") three = 3) as (-> & -> & ->).
    { unfold con, sum_of, three, sgp, sg. cbn. repeat (destruct (Rlt_dec _ _); try lra). }
    rewrite sqrt_sqrt by lra. cbn. destruct (Req_EM_T 3 0); [lra|reflexivity].
  - rewrite E. exists (obs3 1 1), (obs3 2 30). split; [now left|]. split; [right; now left|]. cbn. destruct (Rlt_dec 1 2); [reflexivity|lra].
Qed.
(** y = x^3 orders the rows as x. *)
Definition cubes := [obs3 1 1; obs3 2 8; obs3 5 125].
Example C85_case_one : spearman (Col "x") (Col "y") cubes = Fin 1.
Proof.
  assert (both_present (Col "x") (Col "y") cubes = cubes) as E by reflexivity.
  assert (correlation Spearman (Col "x") (Col "y") None cubes = Some (Fin 1)) as H; [|now injection H].
  apply C85_agreement; [discriminate| |]; rewrite E.
  - exists (obs3 1 1), (obs3 2 8). split; [now left|]. split; [right; now left|]. cbn. destruct (Rlt_dec 1 2); [reflexivity|lra].
  - intros r q Hr Hq. destruct Hr as [<-|[<-|[<-|[]]]], Hq as [<-|[<-|[<-|[]]]]; cbn; repeat (destruct (Rlt_dec _ _); try lra); reflexivity.
Qed.

(** ** Slices *)
(** Whatever the index of the data frame is (also with repeated labels), every slice gets the correlation of its own rows. *)
Theorem C85_slices : forall m a b split_by k df,
  slice_corr m a b split_by k df = correlation m a b None (filter (has_key split_by k) (List.map snd df)).
Proof.
  intros m a b s k df. unfold slice_corr, joined_corr. destruct (reset_labels df) as [HN HS].
  rewrite (join_self a b _ HN) by (intros x Hx; now apply filter_In in Hx). rewrite filter_snd, HS. apply correlation_renamed; reflexivity.
Qed.
(** Without the new index it does not: the data of the comment in metrics.py 2496-2505, of which the slice "1" correlates perfectly with itself. *)
Definition obs_g (g : string) (x : R) : drow := Row (fun _ => Some g) (fun _ => Fin x).
Definition dup := [(1%nat, obs_g "1" 0); (2%nat, obs_g "1" 1); (1%nat, obs_g "2" 2); (2%nat, obs_g "2" 3)].
Theorem C85_no_reset_refuted : joined_corr Kendall (Col "x") (Col "x") ["grp"] ["1"] dup <> Some (Fin 1) /\ slice_corr Kendall (Col "x") (Col "x") ["grp"] ["1"] dup = Some (Fin 1).
Proof.
  split.
  - unfold joined_corr. cbn [correlation]. intros E. injection E as E. rewrite kendall_value in E.
    set (v := both_present _ _ _) in E. assert (con (Col "this") (Col "other") v = 2 /\ con (Col "this") (Col "this") v = 4 /\ con (Col "other") (Col "other") v = 6) as (E1 & E2 & E3).
    { unfold v, con, sum_of, dup, sgp, sg. cbn. repeat (destruct (Rlt_dec _ _); try lra). }
    rewrite E1, E2, E3 in E. assert (sqrt 4 * sqrt 6 > 2) as H.
    { replace 4 with (2 * 2) at 1 by ring. rewrite sqrt_square by lra. assert (1 < sqrt 6) by (rewrite <- sqrt_1; apply sqrt_lt_1; lra). lra. }
    cbn in E. destruct (Req_EM_T (sqrt 4 * sqrt 6) 0); [lra|]. injection E as E. apply (f_equal (fun z => z * (sqrt 4 * sqrt 6))) in E. unfold Rdiv in E. rewrite Rmult_assoc, Rinv_l in E by assumption. lra.
  - rewrite C85_slices. apply C85_agreement; [discriminate| |].
    + exists (obs_g "1" 0), (obs_g "1" 1). split; [now left|]. split; [right; now left|]. cbn. destruct (Rlt_dec 0 1); [reflexivity|lra].
    + intros r q _ _. reflexivity.
Qed.
