(** C17, C18: Quantile. *)
From Coq Require Import Reals List Bool ZArith Lia Lra Sorted Floats.SpecFloat.
From Verif Require Import M_Num M_NxxFloat M_Quantile L_Quantile.
Import ListNotations.
Open Scope list_scope.
Open Scope R_scope.

(** What [interp q (knots points)] is: the points are the distinct values in order with their total weights;
    their knots are (weights up to and with this value - half its weight) / total weight; interp is the piecewise
    linear function through the knots, constant outside. *)
Theorem C17_points : forall rows, StronglySorted (fun a b => fst a < fst b) (aggregate rows) /\
  forall v w, In (v, w) (aggregate rows) <-> In v (List.map fst rows) /\
    w = Rsum (List.map snd (filter (fun r => if Req_EM_T (fst r) v then true else false) rows)).
Proof. intros rows. split; [apply aggregate_sorted|]. intros v w. apply aggregate_spec. Qed.
Theorem C17_knots : forall a v w b, let pts := a ++ (v, w) :: b in
  nth_error (knots pts) (List.length a) = Some ((Rsum (List.map snd (a ++ [(v, w)])) - w / 2) / Rsum (List.map snd pts), v) /\ List.length (knots pts) = List.length pts.
Proof.
  intros a v w b pts.
  assert (H : forall acc W a, nth_error (knots_from acc W (a ++ (v, w) :: b)) (List.length a) = Some ((acc + Rsum (List.map snd (a ++ [(v, w)])) - w / 2) / W, v)).
  { intros acc W a0. revert acc. induction a0 as [|[v0 w0] a0 IH]; intros acc.
    - cbn [app knots_from List.length nth_error List.map snd Rsum]. apply (f_equal (fun z => Some (z / W, v))). lra.
    - cbn [app knots_from List.length nth_error List.map snd Rsum]. rewrite IH. apply (f_equal (fun z => Some (z / W, v))). lra. }
  assert (L : forall acc W l, List.length (knots_from acc W l) = List.length l).
  { intros acc W l. revert acc. induction l as [|[v0 w0] l IH]; intros acc; [reflexivity|]. cbn. now rewrite IH. }
  split; [|apply L]. unfold knots, pts. rewrite H. unfold total. fold pts. apply (f_equal (fun z => Some (z / Rsum (List.map snd pts), v))). lra.
Qed.
Theorem C17_interpolation : forall ks q, StronglySorted (fun a b => fst a < fst b) ks ->
  (forall k v ks', ks = (k, v) :: ks' -> q <= k -> interp q ks = v) /\
  (forall a k v, ks = a ++ [(k, v)] -> k <= q -> interp q ks = v) /\
  (forall a k v k' v' b, ks = a ++ (k, v) :: (k', v') :: b -> k <= q <= k' -> interp q ks = v + (v' - v) * (q - k) / (k' - k)).
Proof.
  intros ks q HS. split; [|split].
  - intros k v ks' ->. now apply interp_low.
  - intros a k v ->. now apply interp_high.
  - intros a k v k' v' b ->. now apply interp_between.
Qed.
(** Values are numbers or missing, weights positive. *)
Definition weighted (rows : list (num * num)) : Prop :=
  Forall (fun r => (exists v, fst r = Fin v) \/ fst r = NaN) rows /\ Forall (fun r => exists w, snd r = Fin w /\ 0 < w) rows.
Lemma weighted_rows rows : weighted rows -> pandas_rows rows = sql_rows rows /\ Forall (fun r => 0 < snd r) (sql_rows rows).
Proof.
  intros [_ H]. split.
  - apply rows_same. eapply Forall_impl; [|exact H]. cbn. intros r [w [-> _]]. discriminate.
  - induction H as [|[v w] rows [w' [E Hw]] H IH]; [constructor|]. cbn in *. subst w. destruct v; auto.
Qed.
(** C17, unless q is the knot of a value that is neither the first nor the last (or the only one): the
    query returns what compute_on returns. *)
Theorem C17_same_quantile_partial : forall q rows, weighted rows ->
  (forall a v b, knots (aggregate (sql_rows rows)) = a ++ (q, v) :: b -> a = [] /\ b <> [] \/ b = [] /\ a <> []) ->
  sql_quantile q rows = pandas_quantile q rows.
Proof.
  intros q rows HW HQ. destruct (weighted_rows rows HW) as [E HP]. unfold sql_quantile, pandas_quantile. rewrite E.
  apply sql_is_interp.
  - apply knots_increasing, aggregate_pos, HP.
  - intros HI. apply interior_iff in HI. destruct HI as (a & v & b & EK & Ha & Hb). destruct (HQ a v b EK) as [[? _]|[? _]]; contradiction.
  - intros k v EK ->. destruct (HQ [] v [] EK) as [[_ H]|[_ H]]; congruence.
Qed.
Print Assumptions C17_same_quantile_partial.
(** At the knot of any other value the query returns twice the value, compute_on the value ... *)
Theorem C17_interior_knot_refuted : forall q rows a v b, weighted rows ->
  knots (aggregate (sql_rows rows)) = a ++ (q, v) :: b -> a <> [] -> b <> [] ->
  sql_quantile q rows = 2 * v /\ pandas_quantile q rows = v.
Proof.
  intros q rows a v b HW EK Ha Hb. destruct (weighted_rows rows HW) as [E HP]. unfold sql_quantile, pandas_quantile. rewrite E.
  pose proof (knots_increasing _ (aggregate_pos _ HP)) as HS. rewrite EK in *. split; [now apply sql_interior|now apply interp_at].
Qed.
Print Assumptions C17_interior_knot_refuted.
(** ... for instance the median of 1, 2, 3 with equal weights. *)
Definition ex_rows : list (num * num) := [(Fin 3, Fin 1); (Fin 1, Fin 1); (Fin 2, Fin 1)].
Lemma ex_knots : knots (aggregate (sql_rows ex_rows)) = [(/6, 1); (/2, 2); (5/6, 3)].
Proof.
  assert (E : aggregate (sql_rows ex_rows) = [(1, 1); (2, 1); (3, 1)]).
  { unfold ex_rows, sql_rows, aggregate. cbn [fold_right fst snd add_weight].
    repeat match goal with |- context[Rlt_dec ?a ?b] => destruct (Rlt_dec a b); try lra; cbn [add_weight] | |- context[Req_EM_T ?a ?b] => destruct (Req_EM_T a b); try lra; cbn [add_weight] end; reflexivity. }
  rewrite E. unfold knots, total. cbn [knots_from List.map snd Rsum]. repeat apply (f_equal2 cons); try reflexivity; apply (f_equal2 pair); try reflexivity; lra.
Qed.
Example C17_median_of_three : sql_quantile (/2) ex_rows = 4 /\ pandas_quantile (/2) ex_rows = 2.
Proof.
  assert (W : weighted ex_rows) by (split; repeat constructor; eexists; try split; try reflexivity; lra).
  destruct (C17_interior_knot_refuted (/2) ex_rows [(/6, 1)] 2 [(5/6, 3)] W) as [H1 H2]; [apply ex_knots|discriminate|discriminate|]. split; [rewrite H1; lra|exact H2].
Qed.
(** Off the knots the hypothesis of the theorem holds. *)
Example C17_example : sql_quantile (1/4) ex_rows = pandas_quantile (1/4) ex_rows.
Proof.
  apply C17_same_quantile_partial; [split; repeat constructor; eexists; try split; try reflexivity; lra|].
  rewrite ex_knots. intros a v b E. exfalso.
  destruct a as [|p [|p' [|p'' [|]]]]; cbn in E; injection E; intros; try lra; discriminate.
Qed.
(** One distinct value: 0 for the median. *)
Theorem C17_single_value_refuted : forall v w, 0 < w -> sql_quantile (/2) [(Fin v, Fin w)] = 0 /\ pandas_quantile (/2) [(Fin v, Fin w)] = v.
Proof.
  intros v w Hw. unfold sql_quantile, pandas_quantile, knots, total. cbn [sql_rows pandas_rows aggregate fold_right add_weight fst snd knots_from List.map Rsum sql_sum hd_error interp]. split; [|reflexivity].
  assert (E : (0 + w - 0.5 * w) / (w + 0) = /2) by (replace 0.5 with (/2) by lra; field; lra). rewrite E. unfold sql_term. cbn [andb orb].
  repeat match goal with |- context[Rlt_dec ?a ?b] => destruct (Rlt_dec a b); try lra end; cbn; lra.
Qed.
Print Assumptions C17_single_value_refuted.
(** A missing weight: the class says such weights are dropped, compute_on keeps the value with weight 0. *)
Theorem C17_missing_weight_refuted : exists q rows rows', rows' = filter (fun r => negb (is_nan (snd r))) rows /\
  pandas_quantile q rows <> pandas_quantile q rows' /\ sql_quantile q rows = sql_quantile q rows' /\ sql_quantile q rows = pandas_quantile q rows'.
Proof.
  exists (/2), [(Fin 1, Fin 1); (Fin 5, NaN); (Fin 7, Fin 1)], [(Fin 1, Fin 1); (Fin 7, Fin 1)].
  assert (E2 : aggregate [(1, 1); (7, 1)] = [(1, 1); (7, 1)]).
  { unfold aggregate. cbn [fold_right fst snd add_weight]. repeat match goal with |- context[Rlt_dec ?a ?b] => destruct (Rlt_dec a b); try lra end; reflexivity. }
  assert (E3 : aggregate [(1, 1); (5, 0); (7, 1)] = [(1, 1); (5, 0); (7, 1)]).
  { unfold aggregate. cbn [fold_right fst snd add_weight]. repeat match goal with |- context[Rlt_dec ?a ?b] => destruct (Rlt_dec a b); try lra; cbn [add_weight] end; reflexivity. }
  assert (K2 : knots [(1, 1); (7, 1)] = [(/4, 1); (3/4, 7)]) by (unfold knots, total; cbn [knots_from List.map snd Rsum]; repeat apply (f_equal2 cons); try reflexivity; apply (f_equal2 pair); try reflexivity; lra).
  assert (K3 : knots [(1, 1); (5, 0); (7, 1)] = [(/4, 1); (/2, 5); (3/4, 7)]) by (unfold knots, total; cbn [knots_from List.map snd Rsum]; repeat apply (f_equal2 cons); try reflexivity; apply (f_equal2 pair); try reflexivity; lra).
  split; [reflexivity|]. unfold pandas_quantile, sql_quantile. cbn [pandas_rows sql_rows]. rewrite E2, E3, K2, K3. split; [|split; [reflexivity|]].
  - cbn. repeat match goal with |- context[Rlt_dec ?a ?b] => destruct (Rlt_dec a b); try lra | |- context[Rle_dec ?a ?b] => destruct (Rle_dec a b); try lra end.
  - cbn. unfold sql_term. cbn [andb]. repeat match goal with |- context[Rlt_dec ?a ?b] => destruct (Rlt_dec a b); try lra | |- context[Rle_dec ?a ?b] => destruct (Rle_dec a b); try lra end; cbn; lra.
Qed.
Print Assumptions C17_missing_weight_refuted.

(** C18: among the percentiles, exactly 0.29, 0.57 and 0.58 read the offset below. *)
Theorem C18_offset_partial : forall k, (0 <= k <= 100)%Z -> (k <> 29 /\ k <> 57 /\ k <> 58)%Z -> sql_offset (percent_literal k) = Some k.
Proof.
  assert (H : forall n, (n <= 100)%nat -> n <> 29%nat -> n <> 57%nat -> n <> 58%nat -> sql_offset (percent_literal (Z.of_nat n)) = Some (Z.of_nat n)).
  { intros n H H1 H2 H3.
    assert (A : forallb (fun n => match sql_offset (percent_literal (Z.of_nat n)) with Some z => Z.eqb z (Z.of_nat n) | None => false end || Nat.eqb n 29 || Nat.eqb n 57 || Nat.eqb n 58) (seq 0 101) = true) by (vm_compute; reflexivity).
    rewrite forallb_forall in A. specialize (A n). rewrite in_seq in A. specialize (A ltac:(lia)).
    rewrite !orb_true_iff, !Nat.eqb_eq in A. destruct A as [[[A|A]|A]|A]; try contradiction. destruct (sql_offset _); [|discriminate]. apply Z.eqb_eq in A. now subst. }
  intros k Hk (N1 & N2 & N3). specialize (H (Z.to_nat k)). rewrite Z2Nat.id in H by lia. apply H; lia.
Qed.
Theorem C18_offset_refuted : sql_offset (percent_literal 29) = Some 28%Z /\ sql_offset (percent_literal 57) = Some 56%Z /\ sql_offset (percent_literal 58) = Some 57%Z.
Proof. repeat split; vm_compute; reflexivity. Qed.
Print Assumptions C18_offset_partial.
