(** C74: an operation over a MetricList gives every metric the result it would have alone. *)
From Coq Require Import Reals List Bool String Arith Permutation Sorted Lia Lra.
From Verif Require Import M_Num M_Frame S_Ops M_Ops M_Leaf L_Frame L_OpsB L_OpsA M_SqlGlobal M_SqlLeaf M_SqlOps S_SqlOps L_SqlSort M_SqlList M_OpList S_OpList L_OpList1 L_OpList2 L_OpList3 L_OpList4 L_OpList5 L_OpList6 P_SqlOps.
Import ListNotations.
Open Scope list_scope.
Open Scope string_scope.

(** The columns are the metrics of the list that can be computed, in order. *)
Theorem C74_columns : forall parse psort lsort o w ms lw split_by df cols rows,
  olist_compute parse psort lsort o w ms lw split_by df = Some (cols, rows) ->
  cols = filter (fun m => match child_of parse psort o w lw split_by df m with Some _ => true | None => false end) ms.
Proof.
  intros parse psort lsort o w ms lw split_by df cols rows. unfold olist_compute.
  set (df' := filter (pfilters parse lw) (filter (pfilters parse w) df)).
  intros H. assert (cols = List.map fst (list_results parse psort ms (split_by ++ lop_over o) df')) as ->.
  { destruct (list_results _ _ _ _ _); [discriminate|]. destruct (wapply _ _ _ _ _ _); [|discriminate]. now injection H as <- <-. }
  clear H. unfold list_results, child_of. fold df'. induction ms as [|m ms IH]; cbn; auto.
  destruct (op_compute parse psort m (split_by ++ lop_over o) df'); cbn; now rewrite IH.
Qed.
(** If the operation over one metric of the list has a result, the list has one, and the column of the metric is that result;
    at the keys that only other metrics have there is [no_data]. *)
Theorem C74_own_result : forall parse psort lsort o w ms lw split_by df m res,
  frames_sort psort lsort -> lop_supported o ms -> In m ms ->
  op_compute parse psort (alone o w lw m) split_by df = Some res ->
  lop_fits parse psort o w ms lw split_by df m ->
  exists cols rows, olist_compute parse psort lsort o w ms lw split_by df = Some (cols, rows) /\ In m cols /\
    forall j, nth_error cols j = Some m -> column_is j rows res (no_data o).
Proof.
  intros parse psort lsort o w ms lw split_by df m res Hs Hsup Hm H Hf.
  rewrite (alone_eq parse psort o w lw split_by df m) in H. destruct (child_of parse psort o w lw split_by df m) as [fr|] eqn:Hc; [|discriminate].
  destruct (res_in parse psort o w ms lw split_by df m fr Hm Hc) as [j Hj].
  destruct (main parse psort lsort Hs o w ms lw split_by df Hsup j m fr res Hj H Hf) as (rows & Hw & _).
  set (rs := list_results parse psort ms (split_by ++ lop_over o) (filter (pfilters parse lw) (filter (pfilters parse w) df))) in *.
  exists (List.map fst rs), rows. split; [|split].
  - unfold olist_compute. fold rs. destruct rs as [|x l] eqn:E; [now destruct j|]. rewrite <- E in Hw |- *. now rewrite Hw.
  - apply nth_error_In in Hj. now apply (in_map fst) in Hj.
  - intros i Hi. destruct (nth_error rs i) as [[m' fr']|] eqn:Ei.
    + pose proof (map_nth_error fst i rs Ei) as Em. cbn in Em. assert (m' = m) as -> by congruence.
      destruct (res_nth parse psort o w ms lw split_by df i m fr' Ei) as [Hc' _]. assert (fr' = fr) as -> by congruence.
      destruct (main parse psort lsort Hs o w ms lw split_by df Hsup i m fr res Ei H Hf) as (rows' & Hw' & Hcol). fold rs in Hw'. rewrite Hw in Hw'. now injection Hw' as <-.
    + apply nth_error_None in Ei. assert (nth_error (List.map fst rs) i <> None) as Hx by (rewrite Hi; discriminate). apply nth_error_Some in Hx. rewrite map_length in Hx. lia.
Qed.
(** The operation over the list raises only if it raises for every metric alone. *)
Theorem C74_raises_iff : forall parse psort lsort o w ms lw split_by df,
  frames_sort psort lsort -> lop_supported o ms ->
  (olist_compute parse psort lsort o w ms lw split_by df = None <-> forall m, In m ms -> op_compute parse psort (alone o w lw m) split_by df = None).
Proof.
  intros parse psort lsort o w ms lw split_by df Hs Hsup. unfold olist_compute.
  set (rs := list_results parse psort ms (split_by ++ lop_over o) (filter (pfilters parse lw) (filter (pfilters parse w) df))).
  assert (forall m, In m ms -> (child_of parse psort o w lw split_by df m = None <-> ~ exists fr, In (m, fr) rs)) as Hchild.
  { intros m Hm. split.
    - intros Hc (fr & Hr). apply In_nth_error in Hr as [j Hr]. destruct (res_nth parse psort o w ms lw split_by df j m fr Hr). congruence.
    - intros Hn. destruct (child_of parse psort o w lw split_by df m) as [fr|] eqn:Hc; auto. destruct Hn. exists fr. destruct (res_in parse psort o w ms lw split_by df m fr Hm Hc) as [j Hj]. now apply nth_error_In in Hj. }
  split.
  - intros H m Hm. rewrite alone_eq. destruct (child_of parse psort o w lw split_by df m) as [fr|] eqn:Hc; auto.
    destruct (res_in parse psort o w ms lw split_by df m fr Hm Hc) as [j Hj]. fold rs in Hj.
    assert (wapply lsort (psort CumValues) o (List.length rs) (List.length split_by) (concat_frames (List.map snd rs)) = None) as Hw.
    { destruct rs as [|x l]; [now destruct j|]. destruct (wapply _ _ _ _ _ _); [discriminate|reflexivity]. }
    destruct o as [over|over how asc|p cond base incl|d over]; try discriminate. cbn [capply wapply] in *.
    assert (forall k v, In (k, v) fr -> In k (List.map fst (concat_frames (List.map snd rs)))) as Hin.
    { intros k v Hk. apply concat_keys. exists fr. split; [apply nth_error_In in Hj; now apply (in_map snd) in Hj|]. now apply (in_map fst) in Hk. }
    assert (xs (List.length split_by) (List.length cond) base fr = None) as Hx.
    { assert (xs (List.length split_by) (List.length cond) base (concat_frames (List.map snd rs)) = None) as Hw0 by (destruct p; unfold wchange in Hw; destruct (xs _ _ base (concat_frames (List.map snd rs))); [discriminate|reflexivity|discriminate|reflexivity]).
      apply xs_None. intros k v Hk. rewrite xs_None in Hw0. specialize (Hin k v Hk). apply in_map_iff in Hin as ([k' v'] & Ek & Hin). cbn in Ek. subst k'. now apply (Hw0 k v'). }
    destruct p; unfold percent_change, absolute_change, compare_with_base; now rewrite Hx.
  - intros H. destruct rs as [|[m0 fr0] l] eqn:Ers; auto. rewrite <- Ers in *.
    assert (forall m fr, In (m, fr) rs -> In m ms /\ child_of parse psort o w lw split_by df m = Some fr) as Hrs.
    { intros m fr Hr. apply In_nth_error in Hr as [j Hr]. destruct (res_nth parse psort o w ms lw split_by df j m fr Hr). auto. }
    assert (forall m fr, In (m, fr) rs -> capply psort o (List.length split_by) fr = None) as Hca.
    { intros m fr Hr. destruct (Hrs m fr Hr) as [Hm Hc]. specialize (H m Hm). rewrite alone_eq, Hc in H. exact H. }
    assert (In (m0, fr0) rs) as H0 by (rewrite Ers; now left).
    destruct o as [over|over how asc|p cond base incl|d over]; try (specialize (Hca m0 fr0 H0); discriminate). cbn [capply wapply] in *.
    assert (xs (List.length split_by) (List.length cond) base (concat_frames (List.map snd rs)) = None) as Hx.
    { apply xs_None. intros k v Hk. assert (In k (List.map fst (concat_frames (List.map snd rs)))) as Hk' by now apply (in_map fst) in Hk.
      apply concat_keys in Hk' as (fr & Hfr & Hk'). apply in_map_iff in Hfr as ([m fr'] & E & Hfr). cbn in E. subst fr'. specialize (Hca m fr Hfr).
      apply in_map_iff in Hk' as ([k' v'] & Ek & Hk'). cbn in Ek. subst k'.
      assert (xs (List.length split_by) (List.length cond) base fr = None) as Hx by (destruct p; unfold percent_change, absolute_change, compare_with_base in Hca; destruct (xs _ _ base fr); [discriminate|reflexivity|discriminate|reflexivity]).
      rewrite xs_None in Hx. now apply (Hx k v'). }
    destruct p; unfold wchange; rewrite Hx; reflexivity.
Qed.
(** A metric without the baseline, for which the comparison alone raises, gets missing values in a list with a metric that has it. *)
Theorem C74_no_baseline : forall parse psort lsort p cond base incl w ms lw split_by df m cols rows,
  let o := LChange p cond base incl in
  frames_sort psort lsort -> lop_supported o ms -> op_compute parse psort (alone o w lw m) split_by df = None ->
  olist_compute parse psort lsort o w ms lw split_by df = Some (cols, rows) ->
  forall j k, nth_error cols j = Some m -> lookup k (wcol j rows) = NaN.
Proof.
  intros parse psort lsort p cond base incl w ms lw split_by df m cols rows o Hs Hsup H Ho j k Hj. unfold olist_compute in Ho.
  set (rs := list_results parse psort ms (split_by ++ lop_over o) (filter (pfilters parse lw) (filter (pfilters parse w) df))) in *.
  assert (cols = List.map fst rs /\ wapply lsort (psort CumValues) o (List.length rs) (List.length split_by) (concat_frames (List.map snd rs)) = Some rows) as [-> Hw].
  { destruct rs; [discriminate|]. destruct (wapply _ _ _ _ _ _); [|discriminate]. now injection Ho as <- <-. }
  destruct (nth_error rs j) as [[m' fr]|] eqn:Ej.
  - pose proof (map_nth_error fst j rs Ej) as Em. cbn in Em. assert (m' = m) as -> by congruence.
    destruct (res_nth parse psort o w ms lw split_by df j m fr Ej) as [Hc Hm]. rewrite alone_eq, Hc in H.
    destruct (W_pads parse psort lsort Hs o w ms lw split_by df Hsup j m fr Ej) as (Hjc & Hp & Hd).
    assert (forall q, In q (List.map fst (concat_frames (List.map snd rs))) -> (List.length split_by + List.length cond <= List.length q)%nat) as Hl
      by (intros q Hq; exact (W_length parse psort lsort Hs o w ms lw split_by df Hsup q Hq)).
    unfold o in *. destruct p; cbn [capply wapply] in *.
    + apply (op_change_none _ j _ _ fr Hjc Hp _ _ base incl percent_nan' Hl rows H Hw).
    + apply (op_change_none _ j _ _ fr Hjc Hp _ _ base incl sub_nan' Hl rows H Hw).
  - apply nth_error_None in Ej. assert (nth_error (List.map fst rs) j <> None) as Hx by (rewrite Hj; discriminate). apply nth_error_Some in Hx. rewrite map_length in Hx. lia.
Qed.
(** With a custom order the column keeps every row of the metric exactly when every metric of the list has a share wherever the
    metric has one. *)
Theorem C74_order_iff : forall parse psort lsort over order asc w ms lw split_by df m res cols rows,
  let o := LCum over (CumOrder order) asc in
  frames_sort psort lsort -> lop_supported o ms -> In m ms ->
  op_compute parse psort (alone o w lw m) split_by df = Some res ->
  olist_compute parse psort lsort o w ms lw split_by df = Some (cols, rows) ->
  ((forall k, In k (List.map fst res) -> In k (List.map fst rows)) <-> all_have_shares parse psort o w ms lw split_by df order m).
Proof.
  intros parse psort lsort over order asc w ms lw split_by df m res cols rows o Hs Hsup Hm H Ho. unfold olist_compute in Ho.
  rewrite alone_eq in H. destruct (child_of parse psort o w lw split_by df m) as [fr|] eqn:Hc; [|discriminate].
  destruct (res_in parse psort o w ms lw split_by df m fr Hm Hc) as [j Hj].
  destruct (W_pads parse psort lsort Hs o w ms lw split_by df Hsup j m fr Hj) as (Hjc & Hp & Hd).
  pose proof (lengths_order parse psort lsort Hs o w ms lw split_by df Hsup over order asc eq_refl) as Hl.
  pose proof (order_complete parse psort lsort Hs o w ms lw split_by df Hsup over order asc j m fr eq_refl Hj) as Hoc.
  set (rs := list_results parse psort ms (split_by ++ lop_over o) (filter (pfilters parse lw) (filter (pfilters parse w) df))) in *.
  assert (wapply lsort (psort CumValues) o (List.length rs) (List.length split_by) (concat_frames (List.map snd rs)) = Some rows) as Hw.
  { destruct rs; [discriminate|]. destruct (wapply _ _ _ _ _ _); [|discriminate]. now injection Ho as <- <-. }
  unfold o in Hw, H. cbn [wapply capply] in Hw, H. injection Hw as <-. injection H as <-.
  rewrite <- Hoc. exact (order_rows_iff _ j _ _ fr Hjc Hp (if asc then order else rev order) Hl lsort (psort CumValues) asc order eq_refl).
Qed.
Print Assumptions C74_own_result.
Print Assumptions C74_order_iff.

(** ** Sorting exists *)
Definition label_cmp {A} (asc : bool) (n : nat) (a b : list string * A) : comparison :=
  if asc then key_cmp (skipn n (fst a)) (skipn n (fst b)) else key_cmp (skipn n (fst b)) (skipn n (fst a)).
Definition value_cmp (asc : bool) (a b : list string * num) : comparison :=
  if is_nan (snd b) then (if is_nan (snd a) then Eq else Lt) else if is_nan (snd a) then Gt else
  if xlt (snd a) (snd b) then (if asc then Lt else Gt) else if xlt (snd b) (snd a) then (if asc then Gt else Lt) else Eq.
Definition label_sort {A} (asc : bool) (n : nat) (l : list (list string * A)) := csort (label_cmp asc n) l.
Definition value_sort (asc : bool) (n : nat) (l : rframe) : rframe := csort (value_cmp asc) l.
Definition some_sort (how : cum_how) := match how with CumValues => value_sort | _ => label_sort end.
Lemma label_sort_sorts A : sorts_labels (A := A) label_sort.
Proof.
  intros asc n l. split; [apply csort_perm|].
  apply (csort_sorted (label_cmp asc n) (fun _ => True)).
  - intros a b _ _. unfold label_cmp. destruct asc; apply key_cmp_anti.
  - intros a b c _ _ _. unfold label_cmp. destruct asc; intros H1 H2; [apply (key_le_trans _ _ _ H1 H2)|apply (key_le_trans _ _ _ H2 H1)].
  - now apply Forall_forall.
Qed.
Lemma value_sort_sorts : sorts_values value_sort.
Proof.
  intros asc n l. split; [apply csort_perm|]. unfold value_sort.
  assert (StronglySorted (fun a b => value_cmp asc a b <> Gt) (csort (value_cmp asc) l)) as H.
  { apply (csort_sorted (value_cmp asc) (fun _ => True)).
    - intros [ka a] [kb b] _ _. unfold value_cmp. cbn [snd]. destruct (is_nan a), (is_nan b); auto. destruct (xlt a b) eqn:E1, (xlt b a) eqn:E2; try (destruct asc; reflexivity). rewrite (xlt_asym _ _ E1) in E2. discriminate.
    - intros [ka a] [kb b] [kc c] _ _ _. unfold value_cmp. cbn [snd]. destruct (is_nan a) eqn:Na, (is_nan b) eqn:Nb, (is_nan c) eqn:Nc; try congruence.
      destruct (xlt a b) eqn:E1, (xlt b a) eqn:E2, (xlt b c) eqn:E3, (xlt c b) eqn:E4; try (rewrite (xlt_asym _ _ E1) in E2; discriminate); try (rewrite (xlt_asym _ _ E3) in E4; discriminate); destruct asc; try congruence; intros _ _;
        try (assert (a = b) as -> by now apply xlt_total); try (assert (b = c) as -> by now apply xlt_total); rewrite ?E1, ?E2, ?E3, ?E4; try discriminate;
        try (rewrite (xlt_trans _ _ _ E1 E3); discriminate); try (pose proof (xlt_trans _ _ _ E4 E2) as E5; rewrite (xlt_asym _ _ E5), E5; discriminate).
      all: destruct (xlt c c) eqn:E5; discriminate.
    - now apply Forall_forall. }
  induction H as [|a l' H IH Hf]; constructor; auto. rewrite Forall_forall in *. intros b Hb. specialize (Hf b Hb). unfold value_cmp in Hf. unfold value_order.
  destruct (is_nan (snd b)) eqn:Nb; [left; now destruct (snd b)|]. destruct (is_nan (snd a)) eqn:Na; [congruence|]. right. split; [intros E; rewrite E in Na; discriminate|].
  destruct (xlt (snd a) (snd b)) eqn:E1, (xlt (snd b) (snd a)) eqn:E2; destruct asc; auto; try congruence. now rewrite (xlt_asym _ _ E1) in E2.
Qed.
Lemma frames_sort_exists : frames_sort some_sort label_sort.
Proof. split; [apply label_sort_sorts|split; [apply value_sort_sorts|apply label_sort_sorts]]. Qed.

(** ** A case: Sum("y") and Sum("y", where="x > 0") in three groups, the second without group b *)
Definition cellxy (p : string) (x y : R) : drow := Row (fun _ => Some p) (fun c => if string_dec c "x" then Fin x else Fin y).
Definition sum_y := OLeaf (MLeaf (Lf (LSum (Col "y"))) []) "sum(y)".
Definition sum_pos := OLeaf (MLeaf (Lf (LSum (Col "y"))) ["x > 0"]) "sum(y) where x > 0".
Definition three : table := [cellxy "a" 1 1; cellxy "b" 0 3; cellxy "c" 1 4].
Definition all3 : rframe := [(["a"], Fin 1); (["b"], Fin 3); (["c"], Fin 4)].
Definition pos3 : rframe := [(["a"], Fin 1); (["c"], Fin 4)].
Lemma pos_rows : filter (pfilters parse0 ["x > 0"]) three = [cellxy "a" 1 1; cellxy "c" 1 4].
Proof. unfold three, pfilters, parse0. cbn -[Rltb]. compare. reflexivity. Qed.
Lemma all_child psort : op_compute parse0 psort sum_y ["p"] three = Some all3.
Proof. unfold all3. cbn. frames. Qed.
Lemma pos_child psort : op_compute parse0 psort sum_pos ["p"] three = Some pos3.
Proof. unfold pos3, sum_pos. cbn [op_compute compute]. rewrite pos_rows. cbn. frames. Qed.
Lemma none_filter {A} (l : list A) : filter (fun _ => true) l = l. Proof. now induction l as [|? ? IH]; cbn; rewrite ?IH. Qed.
Lemma plain3 : filter (pfilters parse0 []) (filter (pfilters parse0 []) three) = three. Proof. reflexivity. Qed.
Lemma both_results psort o : lop_over o = ["p"] -> list_results parse0 psort [sum_y; sum_pos] ([] ++ lop_over o) (filter (pfilters parse0 []) (filter (pfilters parse0 []) three)) = [(sum_y, all3); (sum_pos, pos3)].
Proof. intros ->. rewrite plain3. unfold list_results. cbn [flat_map app]. now rewrite all_child, pos_child. Qed.
Example C74_change_case :
  let o := LChange true ["p"] ["a"] false in
  frames_sort some_sort label_sort /\ lop_supported o [sum_y; sum_pos] /\ lop_fits parse0 some_sort o [] [sum_y; sum_pos] [] [] three sum_pos /\
  op_compute parse0 some_sort (alone o [] [] sum_pos) [] three = Some [(["c"], Fin 300)] /\
  olist_compute parse0 some_sort label_sort o [] [sum_y; sum_pos] [] [] three = Some ([sum_y; sum_pos], [(["b"], [Fin 200; NaN]); (["c"], [Fin 300; Fin 300])]).
Proof.
  cbn zeta. split; [apply frames_sort_exists|]. split; [split; [intros m [<-|[<-|[]]]; exact I|exact I]|]. split; [exact I|]. split.
  - rewrite alone_eq. unfold child_of. rewrite plain3. cbn [lop_over app]. rewrite pos_child. unfold capply, pos3. run. compare. run. frames.
  - unfold olist_compute. rewrite both_results by reflexivity. unfold all3, pos3. run. compare. run. frames.
Qed.
Example C74_values_case : let o := LCum ["p"] CumValues false in
  lop_supported o [sum_y; sum_pos] /\ lop_fits parse0 some_sort o [] [sum_y; sum_pos] [] [] three sum_y.
Proof.
  cbn zeta. split; [split; [intros m [<-|[<-|[]]]; exact I|exact I]|]. intros fr k k' s H. unfold child_of in H. rewrite plain3 in H. cbn [lop_over app] in H. rewrite all_child in H. injection H as <-.
  assert (shares [] all3 = [(["a"], Fin (1 / 8)); (["b"], Fin (3 / 8)); (["c"], Fin (4 / 8))]) as -> by (unfold shares, all3; run; compare; frames).
  intros H1 H2 _ _. cbn in H1, H2. destruct H1 as [H1|[H1|[H1|[]]]], H2 as [H2|[H2|[H2|[]]]]; apply pair_equal_spec in H1 as [<- <-]; apply pair_equal_spec in H2 as [<- E]; auto; exfalso; injection E; lra.
Qed.
Example C74_order_case : let o := LCum ["p"] (CumOrder ["a"; "c"]) true in
  lop_supported o [sum_y; sum_pos] /\ lop_fits parse0 some_sort o [] [sum_y; sum_pos] [] [] three sum_y.
Proof.
  cbn zeta. split; [split; [intros m [<-|[<-|[]]]; exact I|split; [reflexivity|split; [repeat constructor; cbn; intuition discriminate|intros m [<-|[<-|[]]]; reflexivity]]]|].
  intros fr k l H Hl Ek Hv m' fr' Hm Hc. cbn in Ek. subst k. unfold child_of in Hc. rewrite plain3 in Hc. cbn [lop_over app] in Hc.
  assert (shares [] all3 = [(["a"], Fin (1 / 8)); (["b"], Fin (3 / 8)); (["c"], Fin (4 / 8))]) as Ea by (unfold shares, all3; run; compare; frames).
  assert (shares [] pos3 = [(["a"], Fin (1 / 5)); (["c"], Fin (4 / 5))]) as Ep by (unfold shares, pos3; run; compare; frames).
  destruct Hm as [<-|[<-|[]]]; [rewrite all_child in Hc|rewrite pos_child in Hc]; injection Hc as <-; [rewrite Ea|rewrite Ep]; destruct Hl as [<-|[<-|[]]]; cbn; discriminate.
Qed.

(** ** Where a metric does not get its own result *)
(** With a custom order, a group in which one metric has no value is dropped for all of them, and its share is missing from the
    running sums of the others: alone 1/8, 1/2, 1; in the list 1/8, 5/8. *)
Theorem C74_order_refuted : forall psort lsort, exists df, let o := LCum ["p"] (CumOrder ["a"; "b"; "c"]) true in
  op_compute parse0 psort (alone o [] [] sum_y) [] df = Some [(["a"], Fin (1 / 8)); (["b"], Fin (1 / 2)); (["c"], Fin 1)] /\
  exists rows, olist_compute parse0 psort lsort o [] [sum_y; sum_pos] [] [] df = Some ([sum_y; sum_pos], rows) /\
    wcol 0 rows = [(["a"], Fin (1 / 8)); (["c"], Fin (5 / 8))].
Proof.
  intros psort lsort. exists three. cbn zeta. split.
  - rewrite alone_eq. unfold child_of. rewrite plain3. cbn [lop_over app]. rewrite all_child. unfold capply, all3. run. compare. run. frames.
  - eexists. split; [unfold olist_compute; rewrite both_results by reflexivity; reflexivity|]. unfold all3, pos3. run. compare. run. compare. run. frames.
Qed.
(** A slice in which only the other metric has data: alone there is no row, in the list the index is 0, the value of a slice
    without concentration. *)
Definition cells (e p : string) (x y : R) : drow := Row (fun c => if string_dec c "e" then Some e else Some p) (fun c => if string_dec c "x" then Fin x else Fin y).
Theorem C74_missing_slice_refuted : forall psort lsort, exists df, let o := LDiv HHI ["p"] in
  op_compute parse0 psort (alone o [] [] sum_pos) ["e"] df = Some [(["0"], Fin 1)] /\
  olist_compute parse0 psort lsort o [] [sum_y; sum_pos] [] ["e"] df = Some ([sum_y; sum_pos], [(["0"], [Fin 1; Fin 1]); (["1"], [Fin 1; Fin 0])]).
Proof.
  intros psort lsort. exists [cells "0" "a" 1 2; cells "1" "a" 0 2]. cbn zeta.
  assert (forall l, filter (pfilters parse0 []) (filter (pfilters parse0 []) l) = l) as Hn by (intros l; cbn; now rewrite !none_filter).
  assert (op_compute parse0 psort sum_y ["e"; "p"] [cells "0" "a" 1 2; cells "1" "a" 0 2] = Some [(["0"; "a"], Fin 2); (["1"; "a"], Fin 2)]) as H1 by (cbn; frames).
  assert (op_compute parse0 psort sum_pos ["e"; "p"] [cells "0" "a" 1 2; cells "1" "a" 0 2] = Some [(["0"; "a"], Fin 2)]) as H2.
  { unfold sum_pos. cbn [op_compute compute]. assert (filter (pfilters parse0 ["x > 0"]) [cells "0" "a" 1 2; cells "1" "a" 0 2] = [cells "0" "a" 1 2]) as -> by (unfold pfilters, parse0; cbn -[Rltb]; compare; reflexivity). cbn. frames. }
  split.
  - rewrite alone_eq. unfold child_of. rewrite Hn. cbn [lop_over app]. rewrite H2. unfold capply. run. compare. run. frames.
  - unfold olist_compute, list_results. rewrite Hn. cbn [lop_over app flat_map]. rewrite H1, H2. run. compare. run. frames.
Qed.
