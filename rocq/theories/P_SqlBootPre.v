(** C72: Bootstrap's SQL over the table of sums per unit (the default for Sum and Count leaves), and pandas on the raw rows.  As in C70: for
    every outcome of the query there is an outcome of pandas with the same result, and for every outcome of pandas one of the query. *)
From Coq Require Import Reals List Bool String Arith ZArith Permutation Sorted Lia Lra.
From Verif Require Import M_Num M_Frame L_Frame M_Ops S_Ops M_Leaf M_Jackknife S_Jackknife M_Bootstrap M_BootSql L_BootSql M_SqlGlobal M_SqlLeaf S_SqlLeaf L_SqlLeaf L_SqlLeaf2 M_SqlOps S_SqlOps L_SqlOps7 L_SqlScope L_SqlSort M_SqlJackknife S_SqlJackknife M_SqlJackFast S_SqlJackFast L_SqlJack6 L_SqlJack7 M_SqlBoot S_SqlBoot L_SqlBoot2 L_SqlBoot3 L_SqlBoot4 M_SqlBootPre S_SqlBootPre L_SqlBootPre1 L_SqlBootPre2 L_SqlBootPre3 P_SqlOps P_SqlJackknife P_SqlMixedJack P_SqlBoot P_SqlJackFast.
Import ListNotations.
Open Scope string_scope.
Open Scope list_scope.

(** [data]: the summed table.  Whatever units the query draws (with whatever random numbers and row order), pandas can draw the same units
    of the raw rows; if the child agrees (C62) on the raw rows, and on every slice of the raw rows of the drawn units, the index, point
    estimates, standard errors and bounds are the same. *)
Theorem C72_query_as_pandas : forall parse srt psort rand order pre where_ unit n m split_by t0,
  let t := filter (spass parse where_) t0 in
  let data := unit_sums parse pre where_ unit m split_by t0 in
  let index := split_by ++ extra_idx m in
  let sample i := boot_sample split_by (boot_unit unit m) rand i (order i data) in
  db_sorts srt -> pandas_sorts psort ->
  (forall f, ~ In resample_idx (cond_labels (parse f))) ->
  supported_tree (split_by ++ [resample_idx]) m -> ~ In (boot_se_name (value_name m)) index ->
  (forall f r, In f where_ -> In r t0 -> same_verdict (parse f) r) ->
  (forall r, In r t -> slab r unit <> None) ->
  (1 <= n)%nat -> t <> [] -> (forall i, Permutation (order i data) data) -> (forall i j, 0 < rand i j <= 1)%R ->
  sums_only m -> own_columns pre m ->
  child_fits parse psort m split_by t ->
  (forall i k drawn, (1 <= i <= n)%nat -> Permutation (sample i) (rows_of split_by unit drawn data) -> rows_in split_by k (rows_of split_by unit drawn t) <> [] ->
     child_fits parse psort m [] (rows_in split_by k (rows_of split_by unit drawn t)) /\ every_leaf_has_rows parse m (rows_in split_by k (rows_of split_by unit drawn t))) ->
  exists draws, (forall i, (1 <= i <= n)%nat -> possible_draw (draw_sizes split_by (Some unit) (pandas_table t)) (draws i)) /\
  exists result, bootstrap_pandas parse psort draws where_ (Some unit) n m split_by (pandas_table t0) = Some result /\
    jk_same_rows (boot_shown index (value_name m) (bootstrap_sql_preagg parse srt rand order pre where_ unit n m split_by t0)) result /\
    (~ In (dof_name (value_name m)) index -> forall ppf confidence,
       jk_same_bounds ppf confidence (boot_bounds ppf confidence index (value_name m) (bootstrap_sql_preagg parse srt rand order pre where_ unit n m split_by t0)) result).
Proof.
  intros parse srt psort rand order pre where_ u n m s t0 t D index sample H1 H2 H3 H4 H5 H6 H7 H8 H9 H10 H11 H12 H13 H14 H15.
  destruct (D_rows parse pre where_ u m s t0 H9) as (Hnd & _).
  assert (forall i, In i (seq 1 n) -> exists ds', possible_draw (draw_sizes s (boot_unit u m) (pandas_table D)) ds' /\ Permutation (pandas_table (sample i)) (boot_psample s (boot_unit u m) (pandas_table D) ds')) as HD'.
  { intros i _. apply C70_sample_is_a_draw; auto.
    - exact (s_label parse psort pre where_ u m s t0 H7 H9 H14).
    - exact (unit_label parse psort pre where_ u m s t0 H7 H9 H14). }
  destruct (choose_nat _ [] (seq 1 n) HD') as [draws' HD]. clear HD'.
  assert (forall i, In i (seq 1 n) -> exists ds, possible_draw (draw_sizes s (Some u) (pandas_table t)) ds /\
    boot_psample s (boot_unit u m) (pandas_table D) (draws' i) = pandas_table (rows_of s u (sample_groups (unit_groups s u (pandas_table t)) ds) D)) as HU.
  { intros i Hi. apply (to_units s (extra_split m) u t D); [| |exact Hnd| | |apply (HD i Hi)].
    - intros r c Hr Hc. apply (labels parse psort where_ u m s t0 H7 H14 r c Hr). now apply (su_in u m s).
    - intros r c Hr Hc. apply (D_labels parse psort pre where_ u m s t0 H7 H9 H14 r c Hr). now apply (su_in u m s).
    - exact (D_units1 parse pre where_ u m s t0 H9).
    - exact (D_units2 parse pre where_ u m s t0 H9). }
  destruct (choose_nat _ [] (seq 1 n) HU) as [draws HE]. clear HU.
  assert (forall i, (1 <= i <= n)%nat -> In i (seq 1 n)) as Hseq by (intros i Hi; apply in_seq; lia).
  exists draws. split; [intros i Hi; apply (HE i (Hseq i Hi))|].
  refine (same_pre parse srt psort rand order pre where_ u n m s t0 H1 H2 H3 H4 H5 H6 H7 H8 H9 H10 H12 H13 H14 draws' draws _ _ _ _).
  - intros i Hi. apply (HD i (Hseq i Hi)).
  - intros i Hi. apply (HD i (Hseq i Hi)).
  - intros i Hi. apply (HE i (Hseq i Hi)).
  - intros i k Hi Hp. now apply (H15 i k).
Qed.
Print Assumptions C72_query_as_pandas.

Theorem C72_pandas_as_query : forall parse srt psort draws order pre where_ unit n m split_by t0,
  let t := filter (spass parse where_) t0 in
  let data := unit_sums parse pre where_ unit m split_by t0 in
  let index := split_by ++ extra_idx m in
  let drawn i := sample_groups (unit_groups split_by unit (pandas_table t)) (draws i) in
  db_sorts srt -> pandas_sorts psort ->
  (forall f, ~ In resample_idx (cond_labels (parse f))) ->
  supported_tree (split_by ++ [resample_idx]) m -> ~ In (boot_se_name (value_name m)) index ->
  (forall f r, In f where_ -> In r t0 -> same_verdict (parse f) r) ->
  (forall r, In r t -> slab r unit <> None) ->
  (1 <= n)%nat -> t <> [] -> (forall i, Permutation (order i data) data) ->
  (forall i, (1 <= i <= n)%nat -> possible_draw (draw_sizes split_by (Some unit) (pandas_table t)) (draws i)) ->
  sums_only m -> own_columns pre m ->
  child_fits parse psort m split_by t ->
  (forall i k, (1 <= i <= n)%nat -> rows_in split_by k (rows_of split_by unit (drawn i) t) <> [] ->
     child_fits parse psort m [] (rows_in split_by k (rows_of split_by unit (drawn i) t)) /\ every_leaf_has_rows parse m (rows_in split_by k (rows_of split_by unit (drawn i) t))) ->
  exists rand, (forall i j, 0 < rand i j <= 1)%R /\
  exists result, bootstrap_pandas parse psort draws where_ (Some unit) n m split_by (pandas_table t0) = Some result /\
    jk_same_rows (boot_shown index (value_name m) (bootstrap_sql_preagg parse srt rand order pre where_ unit n m split_by t0)) result /\
    (~ In (dof_name (value_name m)) index -> forall ppf confidence,
       jk_same_bounds ppf confidence (boot_bounds ppf confidence index (value_name m) (bootstrap_sql_preagg parse srt rand order pre where_ unit n m split_by t0)) result).
Proof.
  intros parse srt psort draws order pre where_ u n m s t0 t D index drawn H1 H2 H3 H4 H5 H6 H7 H8 H9 H10 H11 H12 H13 H14 H15.
  destruct (D_rows parse pre where_ u m s t0 H9) as (Hnd & _).
  assert (forall i, In i (seq 1 n) -> exists ds', possible_draw (draw_sizes s (boot_unit u m) (pandas_table D)) ds' /\
    boot_psample s (boot_unit u m) (pandas_table D) ds' = pandas_table (rows_of s u (drawn i) D)) as HU.
  { intros i Hi. apply in_seq in Hi. apply (from_units s (extra_split m) u t D); [| |exact Hnd| | |apply H11; lia].
    - intros r c Hr Hc. apply (labels parse psort where_ u m s t0 H7 H14 r c Hr). now apply (su_in u m s).
    - intros r c Hr Hc. apply (D_labels parse psort pre where_ u m s t0 H7 H9 H14 r c Hr). now apply (su_in u m s).
    - exact (D_units1 parse pre where_ u m s t0 H9).
    - exact (D_units2 parse pre where_ u m s t0 H9). }
  destruct (choose_nat _ [] (seq 1 n) HU) as [draws' HD]. clear HU.
  assert (forall i, (1 <= i <= n)%nat -> In i (seq 1 n)) as Hseq by (intros i Hi; apply in_seq; lia).
  destruct (C70_every_draw_is_a_sample s (boot_unit u m) n draws' order D H10) as (rand & HR & HP).
  - exact (s_label parse psort pre where_ u m s t0 H7 H9 H14).
  - exact (unit_label parse psort pre where_ u m s t0 H7 H9 H14).
  - intros i Hi. apply (HD i (Hseq i Hi)).
  - exists rand. split; [exact HR|].
    refine (same_pre parse srt psort rand order pre where_ u n m s t0 H1 H2 H3 H4 H5 H6 H7 H8 H9 H10 H12 H13 H14 draws' draws _ HP _ _).
    + intros i Hi. apply (HD i (Hseq i Hi)).
    + intros i Hi. apply (HD i (Hseq i Hi)).
    + intros i k Hi _. now apply (H15 i k).
Qed.
Print Assumptions C72_pandas_as_query.

(** ** Cases *)
Lemma one_unit c r : In r (M_SqlLeaf.group ([] ++ ["u"]) (List.map Some c) datau) -> In r datau. Proof. intros H. now apply filter_In in H. Qed.
Lemma raw_rows s u drawn t r : In r (rows_of s u drawn t) -> In r t.
Proof. intros H. apply in_flat_map in H as (c & _ & H). now apply filter_In in H. Qed.
(** Bootstrap("u", Sum("x")), split by "p": the rows are sampled, because each unit has one row in each slice *)
Example C72_rows_case : boot_unit "u" sum_x = None /\
  sums_only sum_x /\ own_columns (names "") sum_x /\
  (forall k drawn, rows_in ["p"] k (rows_of ["p"] "u" drawn datau) <> [] ->
     child_fits parse0 pd_sort sum_x [] (rows_in ["p"] k (rows_of ["p"] "u" drawn datau)) /\ every_leaf_has_rows parse0 sum_x (rows_in ["p"] k (rows_of ["p"] "u" drawn datau))) /\
  List.map (srow_key ["p"; "u"]) (unit_sums parse0 (names "") [] "u" sum_x ["p"] datau) = [[Some "a"; Some "1"]; [Some "b"; Some "1"]; [Some "a"; Some "2"]; [Some "b"; Some "2"]].
Proof.
  split; [reflexivity|]. split; [intros l fs [E|[]]; injection E as <- <-; eexists; now left|]. split; [intros l fs l' fs' [E|[]] [E'|[]] _; congruence|].
  split; [|reflexivity]. intros k drawn Hk. apply sub_fits; [|exact Hk]. intros r Hr. apply filter_In in Hr as [Hr _]. now apply raw_rows in Hr.
Qed.
(** Bootstrap("u", Distribution("p", Sum("x"))): units are sampled; every sample of units fits (the other hypotheses are in C65_case) *)
Definition block (c : list string) : stable := M_SqlLeaf.group ([] ++ ["u"]) (List.map Some c) datau.
Lemma block_cases c : block c = [] \/ block c = [cellu "1" "a" 1; cellu "1" "b" 3] \/ block c = [cellu "2" "a" 2; cellu "2" "b" 2].
Proof.
  destruct (list_eq_dec string_dec c ["1"]) as [->|N1]; [right; left; reflexivity|]. destruct (list_eq_dec string_dec c ["2"]) as [->|N2]; [right; right; reflexivity|]. left.
  assert (forall x, srow_key ([] ++ ["u"]) x = [Some "1"] \/ srow_key ([] ++ ["u"]) x = [Some "2"] -> (if skey_dec (srow_key ([] ++ ["u"]) x) (List.map Some c) then true else false) = false) as H.
  { intros x H. destruct (skey_dec (srow_key ([] ++ ["u"]) x) (List.map Some c)) as [E|]; [|reflexivity]. exfalso. rewrite E in H. destruct c as [|y [|z c]]; cbn in H; destruct H as [H|H]; try discriminate; injection H as ->; contradiction. }
  unfold block, M_SqlLeaf.group, datau. cbn [filter]. rewrite !H; [reflexivity|now right|now right|now left|now left].
Qed.
Lemma sum_positive rows : rows <> [] -> (forall r, In r rows -> exists x, (0 < x)%R /\ val r "x" = Fin x) -> exists x, (0 < x)%R /\ pandas_leaf (Lf (LSum (Col "x"))) rows = Fin x.
Proof.
  intros Hn H. cbn [pandas_leaf leaf_value]. change (exists x, (0 < x)%R /\ agg_sum "x" rows = Fin x).
  assert (exists x, (0 <= x)%R /\ (rows <> [] -> (0 < x)%R) /\ agg_sum "x" rows = Fin x) as (x & _ & Hx & E); [|exists x; split; [now apply Hx|exact E]]. clear Hn.
  induction rows as [|r rows IH]; [exists 0%R; split; [lra|]; split; [congruence|reflexivity]|]. destruct (H r (or_introl eq_refl)) as (x & Hx & E).
  destruct IH as (y & Hy & _ & Ey); [intros r' Hr'; apply H; now right|]. exists (x + y)%R. split; [lra|]. split; [intros _; lra|].
  unfold agg_sum, column in *. cbn [List.map]. rewrite E. unfold xsum in *. cbn [fold_right is_nan]. rewrite Ey. reflexivity.
Qed.
Lemma sums_drawn drawn : rows_of [] "u" drawn datau <> [] -> exists a b, (0 < a)%R /\ (0 < b)%R /\ op_compute parse0 pd_sort sum_x ["p"] (pandas_table (rows_of [] "u" drawn datau)) = Some (sums a b).
Proof.
  intros Hn. set (T := rows_of [] "u" drawn datau) in *.
  assert (forall r, In r T -> In r datau) as Hin by (intros r; apply raw_rows).
  assert (In (cellu "1" "a" 1) T /\ In (cellu "1" "b" 3) T \/ In (cellu "2" "a" 2) T /\ In (cellu "2" "b" 2) T) as Hab.
  { destruct T as [|r T'] eqn:ET; [congruence|]. assert (In r (rows_of [] "u" drawn datau)) as Hr by (fold T; rewrite ET; now left). apply in_flat_map in Hr as (c & Hc & Hr).
    assert (forall r', In r' (block c) -> In r' (r :: T')) as Hb by (intros r' Hr'; rewrite <- ET; apply in_flat_map; exists c; auto). fold (block c) in Hr.
    destruct (block_cases c) as [E|[E|E]]; rewrite E in Hr, Hb; [destruct Hr|left|right]; (split; apply Hb; cbn; tauto). }
  assert (forall p, p = "a" \/ p = "b" -> exists r, In r T /\ row_key ["p"] (pandas_row r) = Some [p]) as Hp by (intros p [->| ->]; destruct Hab as [[H1 H2]|[H1 H2]]; eexists; first [split; [exact H1|reflexivity]|split; [exact H2|reflexivity]]).
  cbn [op_compute sum_x compute compute_leaf]. f_equal.
  assert (filter (pfilters parse0 []) (pandas_table T) = pandas_table T) as -> by (clear; induction (pandas_table T) as [|r l IH]; [reflexivity|cbn; now rewrite IH]).
  assert (group_keys ["p"] (pandas_table T) = [["a"]; ["b"]]) as EK.
  { apply ksorted_ext; [apply sort_uniq_sorted|change [["a"]; ["b"]] with (sort_uniq [["a"]; ["b"]]); apply sort_uniq_sorted|]. intros k. rewrite group_keys_In. split.
    - intros [[E _]|(_ & r & Hr & Ek)]; [discriminate|]. apply in_map_iff in Hr as (r' & <- & Hr). apply Hin in Hr. cbn in Hr. repeat (destruct Hr as [<-|Hr]; [injection Ek as <-; cbn; tauto|]). destruct Hr.
    - intros Hk. right. split; [discriminate|]. destruct Hk as [<-|[<-|[]]]; [destruct (Hp "a" (or_introl eq_refl)) as (r & Hr & E)|destruct (Hp "b" (or_intror eq_refl)) as (r & Hr & E)]; exists (pandas_row r); (split; [now apply in_map|exact E]). }
  unfold compute_leaf. rewrite EK. cbn [List.map].
  assert (forall p, p = "a" \/ p = "b" -> exists x, (0 < x)%R /\ pandas_leaf (Lf (LSum (Col "x"))) (slice ["p"] [p] (pandas_table T)) = Fin x) as HV.
  { intros p Hpp. destruct (Hp p Hpp) as (r & Hr & E). apply sum_positive.
    - intros E0. assert (In (pandas_row r) (slice ["p"] [p] (pandas_table T))) as H; [|rewrite E0 in H; destruct H]. apply filter_In. split; [now apply in_map|]. unfold has_key. rewrite E. now apply key_eqb_eq.
    - intros d Hd. apply filter_In in Hd as [Hd _]. apply in_map_iff in Hd as (r' & <- & Hr'). apply Hin in Hr'. cbn in Hr'. repeat (destruct Hr' as [<-|Hr']; [eexists; split; [|reflexivity]; lra|]). destruct Hr'. }
  destruct (HV "a" (or_introl eq_refl)) as (a & Ha & Ea). destruct (HV "b" (or_intror eq_refl)) as (b & Hb & Eb). rewrite Ea, Eb. exists a, b. repeat split; auto.
Qed.
Example C72_units_case : boot_unit "u" dist_x = Some "u" /\ sums_only dist_x /\ own_columns (names "") dist_x /\ child_fits parse0 pd_sort dist_x [] datau /\
  (forall k drawn, rows_in [] k (rows_of [] "u" drawn datau) <> [] ->
     child_fits parse0 pd_sort dist_x [] (rows_in [] k (rows_of [] "u" drawn datau)) /\ every_leaf_has_rows parse0 dist_x (rows_in [] k (rows_of [] "u" drawn datau))) /\
  (exists drawn, rows_in [] [] (rows_of [] "u" drawn datau) <> []).
Proof.
  split; [reflexivity|]. split; [apply C65_fast_case|]. split; [apply C65_fast_case|]. split; [apply C65_case|]. split; [|exists [["1"]]; discriminate].
  intros k drawn Hk. assert (k = [] /\ rows_in [] k (rows_of [] "u" drawn datau) = rows_of [] "u" drawn datau) as [-> Ek].
  { unfold rows_in in *. destruct k as [|x k]; [split; [reflexivity|apply L_OpsA.filter_all; reflexivity]|]. exfalso. apply Hk. apply L_OpsA.filter_none. intros r _. reflexivity. }
  rewrite Ek in *. destruct (sums_drawn drawn Hk) as (a & b & Ha & Hb & E). split; [apply (child_u _ a b); [apply raw_rows|exact E|lra]|].
  intros b0 ab lc by' l fs [E'|[]] Hl. injection E' as <- <- <- <-. destruct Hl as [E'|[]]. injection E' as <- <-. destruct (rows_of [] "u" drawn datau) as [|r T]; [congruence|]. exists r. split; [now left|reflexivity].
Qed.
