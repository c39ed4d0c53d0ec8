(** C80: MH over a MetricList of ratios: every column is the MH of that ratio alone, and SQL and pandas give the same table. *)
From Coq Require Import Reals List Bool String Arith Permutation Sorted Lia Lra.
From Verif Require Import M_Num M_Frame L_Frame M_Ops S_Ops M_Leaf M_SqlGlobal M_SqlLeaf S_SqlLeaf L_SqlLeaf L_SqlLeaf2 M_SqlOps S_SqlOps L_SqlOps7 L_SqlBin L_SqlScope L_SqlSort M_SqlList S_SqlList M_SqlMixedJack M_SqlMH S_SqlMH M_OpList S_OpList L_OpList2 L_OpList3 M_SqlMHList S_SqlMHList L_SqlMHList1 L_SqlMHList2 L_SqlMHList3 P_SqlOps P_SqlList P_SqlMH.
Import ListNotations.
Open Scope string_scope.
Open Scope list_scope.

Lemma all_some_nth {A B} (f : A -> option B) l : forall l', all_some (List.map f l) = Some l' -> forall j a, nth_error l j = Some a -> exists b, nth_error l' j = Some b /\ f a = Some b.
Proof.
  induction l as [|a l IH]; cbn [List.map all_some]; intros l' E j a' Hj; [destruct j; discriminate|].
  destruct (f a) as [b|] eqn:Ea; [|discriminate]. destruct (all_some (List.map f l)) as [bs|]; [|discriminate]. cbn [option_map] in E. injection E as <-.
  destruct j as [|j]; cbn [nth_error] in *; [injection Hj as <-; eauto|exact (IH bs eq_refl j a' Hj)].
Qed.
Lemma all_some_none {A B} (f : A -> option B) l : all_some (List.map f l) = None <-> exists a, In a l /\ f a = None.
Proof.
  induction l as [|a l IH]; cbn [List.map all_some]; [split; [discriminate|intros (a & [] & _)]|].
  destruct (f a) as [b|] eqn:Ea.
  - destruct (all_some (List.map f l)) as [bs|]; cbn [option_map]; split; try discriminate.
    + intros (a' & [<-|Ha] & E); [congruence|]. destruct IH as [_ IH]. discriminate IH. eauto.
    + intros _. destruct IH as [IH _]. destruct (IH eq_refl) as (a' & Ha & E). exists a'. split; [now right|exact E].
    + reflexivity.
  - split; [intros _; exists a; split; [now left|exact Ea]|reflexivity].
Qed.

(** Any ratios of metrics of C62, any data: the columns are named after the ratios; a column is what the MH of the ratio alone gives, and NaN
    where only other ratios have data; every row is a row of one of them. *)
Theorem C80_each_alone : forall parse psort x split_by df names rows,
  mhl_pandas parse psort x split_by df = Some (names, rows) ->
  names = List.map (fun r => String.append (r_name r) " MH Ratio") (l_ratios x) /\
  (forall j r, nth_error (l_ratios x) j = Some r ->
     exists result, mh_pandas parse psort (mh_alone x r) split_by df = Some result /\ column_is j rows result NaN) /\
  (forall k, In k (List.map fst rows) -> exists r result, In r (l_ratios x) /\ mh_pandas parse psort (mh_alone x r) split_by df = Some result /\ In k (List.map fst result)).
Proof.
  intros parse psort x s df names rows E. unfold mhl_pandas in E. set (rs := l_ratios x) in *. clearbody rs.
  assert (exists res, all_some (List.map (ratio_mh parse psort x s df) rs) = Some res /\ names = List.map mh_name rs /\ rows = concat_frames res) as (res & Er & -> & ->).
  { destruct rs as [|r0 rs]; [discriminate|]. destruct (all_some _) as [res|]; [|discriminate]. cbn [option_map] in E. injection E as <- <-. eauto. }
  split; [reflexivity|]. split.
  - intros j r Hj. destruct (all_some_nth _ _ _ Er j r Hj) as (fr & Hf & Em). exists fr. rewrite alone_mh. split; [exact Em|]. apply pads_is, concat_pads; [exact Hf|].
    unfold ratio_mh in Em. destruct (ratio_children parse psort x s df r) as [d|]; [|discriminate]. exact (mh_keys_nodup _ _ _ _ _ _ _ Em).
  - intros k Hk. apply concat_keys in Hk as (fr & Hf & Hk).
    assert (exists r, In r rs /\ ratio_mh parse psort x s df r = Some fr) as (r & Hr & Em).
    { clear - Er Hf. revert res Er Hf. induction rs as [|r rs IH]; cbn [List.map all_some]; intros res Er Hf; [injection Er as <-; destruct Hf|].
      destruct (ratio_mh parse psort x s df r) as [b|] eqn:Eb; [|discriminate]. destruct (all_some (List.map _ rs)) as [bs|]; [|discriminate]. cbn [option_map] in Er. injection Er as <-.
      destruct Hf as [<-|Hf]; [exists r; split; [now left|exact Eb]|]. destruct (IH bs eq_refl Hf) as (r' & Hr' & E'). exists r'. split; [now right|exact E']. }
    exists r, fr. rewrite alone_mh. auto.
Qed.
Print Assumptions C80_each_alone.
(** One ratio whose MH raises (no row of the baseline, for instance) makes the whole raise: unlike a MetricList of MHs (C08), an MH of a MetricList does
    not isolate it. *)
Theorem C80_one_raises : forall parse psort x split_by df, l_ratios x <> [] ->
  (mhl_pandas parse psort x split_by df = None <-> exists r, In r (l_ratios x) /\ mh_pandas parse psort (mh_alone x r) split_by df = None).
Proof.
  intros parse psort x s df Hne. unfold mhl_pandas.
  assert (all_some (List.map (ratio_mh parse psort x s df) (l_ratios x)) = None <-> exists r, In r (l_ratios x) /\ mh_pandas parse psort (mh_alone x r) s df = None) as H.
  { rewrite all_some_none. split; intros (r & Hr & E); exists r; rewrite alone_mh in *; auto. }
  rewrite <- H. clear H. destruct (l_ratios x) as [|r0 rs]; [congruence|]. destruct (all_some _); cbn [option_map]; split; intros E; try discriminate E; reflexivity.
Qed.
(** Ratios of any leaf metrics (C16) with any filters, which may share metrics; data that fits every leaf and every ratio (C66): the SQL has the columns and the
    rows of pandas. *)
Theorem C80_same_rows : forall parse srt psort t x split_by,
  db_sorts srt -> pandas_sorts psort -> supported_mhl x split_by ->
  mhl_leaves_fit parse x split_by t -> mhl_fits parse psort x split_by (pandas_table t) ->
  exists names rows result,
    mhl_sql parse srt x split_by t = Some (names, rows) /\
    mhl_pandas parse psort x split_by (pandas_table t) = Some (names, result) /\
    Permutation (list_shown (split_by ++ l_cond x) names rows) (List.map (fun kv => (List.map Some (fst kv), snd kv)) result).
Proof. intros parse srt psort t x s H1 H2 H3 H4 H5. destruct (mhl_same parse srt psort x s t H1 H2 H3 H4 H5) as (rows & result & E1 & E2 & HP). exists (List.map mh_name (l_ratios x)), rows, result. auto. Qed.
Print Assumptions C80_same_rows.
(** Metrics that ratios share are one column of MHRaw; the same name for another expression (another filter) is another column: the names of the columns are different, and every metric of every ratio
    has its expression there. *)
Theorem C80_shared_metrics : forall x split_by, supported_mhl x split_by ->
  exists cols wh, mhl_raw x split_by = Some (LLeaf cols wh (split_by ++ l_cond x ++ l_strata x)) /\ NoDup (List.map fst cols) /\
    forall r m, In r (l_ratios x) -> m = r_numer r \/ m = r_denom r ->
      exists q, mhl_child_sql x split_by r m = SqlLeaf q (value_name m) /\
                assoc (alias_in (LLeaf cols wh (split_by ++ l_cond x ++ l_strata x)) (mhl_child_sql x split_by r m)) cols = Some (q_col q).
Proof.
  intros x s H. destruct (raw_exists x s H) as (cols & E1 & E2 & E3). exists cols, (get_global_filter (mhl_filter_tree x)). split; [exact E1|]. split; [exact E2|].
  intros r m Hr Hm. assert (is_leaf m) as Hl by (destruct (ratio_leaves x s H r Hr); destruct Hm as [-> | ->]; assumption).
  eexists. split; [exact (child_leaf x s r m Hl)|]. cbn [q_col]. destruct (alias_there x s H cols E1 E3 r m Hr Hm) as [Hi _]. exact (L_SqlList.assoc_In _ _ _ E2 Hi).
Qed.

(** ** A case: MH("e", "0", "p", MetricList([Ratio("x", "y", "ctr", where="x > 0"), Ratio("y", "x", "inv")])): the metrics of the two ratios have the same names
    and, because of the filter, other expressions. *)
Definition ctr := MHRatio "ctr" ["x > 0"] sum_x sum_y.
Definition inv_ := MHRatio "inv" [] sum_y sum_x.
Definition mhl1 := MHL ["e"] ["0"] ["p"] false [ctr; inv_] [] [].
Definition kids2 : frame2 := [(["0"; "a"], (Fin 2, Fin 1)); (["0"; "b"], (Fin 4, Fin 1)); (["1"; "a"], (Fin 2, Fin 2)); (["1"; "b"], (Fin (4 + 7), Fin 0)); (["1"; "c"], (Fin 1, Fin 1))].
Lemma kids_ctr : mh_children parse0 pd_sort (mh_alone mhl1 ctr) [] (pandas_table dataxy) = Some kids.
Proof.
  pose proof (kids_mh false) as H. unfold mh_children in *. cbv zeta in *. cbn [mh1 mh_alone mhl1 ctr l_where l_list_where r_where mh_child_where mh_where app] in *.
  assert (filter (pfilters parse0 ["x > 0"]) (filter (pfilters parse0 []) (pandas_table dataxy)) = filter (pfilters parse0 []) (filter (pfilters parse0 ["x > 0"]) (pandas_table dataxy))) as E.
  { rewrite !filter_pfilters_app. reflexivity. }
  rewrite E. exact H.
Qed.
Lemma kids_inv : mh_children parse0 pd_sort (mh_alone mhl1 inv_) [] (pandas_table dataxy) = Some kids2.
Proof.
  unfold mh_children. cbv zeta. cbn [mh_alone mhl1 inv_ l_where l_list_where r_where r_numer r_denom mh_child_where mh_where mh_numer mh_denom app].
  assert (filter (pfilters parse0 []) (filter (pfilters parse0 []) (pandas_table dataxy)) = pandas_table dataxy) as -> by reflexivity.
  assert (op_compute parse0 pd_sort sum_y (mh_by (mh_alone mhl1 inv_) []) (pandas_table dataxy) = Some (List.map (fun kv => (fst kv, fst (snd kv))) kids2)) as -> by (cbn; frames).
  assert (op_compute parse0 pd_sort sum_x (mh_by (mh_alone mhl1 inv_) []) (pandas_table dataxy) = Some (List.map (fun kv => (fst kv, snd (snd kv))) kids2)) as -> by (cbn; frames).
  reflexivity.
Qed.
Lemma result_ctr : mh 0 1 1 ["0"] false kids = Some [(["1"], Fin 50)].
Proof. pose proof result_mh as R. unfold mh_pandas in R. rewrite kids_mh in R. exact R. Qed.
Lemma result_inv : mh 0 1 1 ["0"] false kids2 = Some [(["1"], Fin 775)].
Proof. run. compare. run. frames. Qed.
Lemma result_mhl : mhl_pandas parse0 pd_sort mhl1 [] (pandas_table dataxy) = Some (["ctr MH Ratio"; "inv MH Ratio"], [(["1"], [Fin 50; Fin 775])]).
Proof.
  assert (ratio_mh parse0 pd_sort mhl1 [] (pandas_table dataxy) ctr = Some [(["1"], Fin 50)]) as E1 by (unfold ratio_mh; rewrite <- alone_children, kids_ctr; exact result_ctr).
  assert (ratio_mh parse0 pd_sort mhl1 [] (pandas_table dataxy) inv_ = Some [(["1"], Fin 775)]) as E2 by (unfold ratio_mh; rewrite <- alone_children, kids_inv; exact result_inv).
  unfold mhl_pandas. change (l_ratios mhl1) with [ctr; inv_]. cbn [List.map]. rewrite E1, E2. reflexivity.
Qed.
Lemma data_cells r : In r dataxy -> (forall c, slab r c <> None) /\ (forall c, snum r c <> None).
Proof. intros Hr. unfold dataxy in Hr. cbn [In] in Hr. repeat (destruct Hr as [<-|Hr]; [split; discriminate|]). destruct Hr. Qed.
Lemma positive_row r : In r dataxy -> exists r', In r' dataxy /\ srow_key ["e"; "p"] r' = srow_key ["e"; "p"] r /\ spass parse0 ["x > 0"] r' = true.
Proof.
  intros Hr. unfold dataxy in Hr. cbn [In] in Hr.
  repeat match type of Hr with _ \/ _ => destruct Hr as [<-|Hr] | False => destruct Hr end.
  - exists (cellxy "0" "a" 1 2). split; [cbn; tauto|]. split; [reflexivity|]. run. compare. reflexivity.
  - exists (cellxy "0" "b" 1 4). split; [cbn; tauto|]. split; [reflexivity|]. run. compare. reflexivity.
  - exists (cellxy "1" "a" 2 2). split; [cbn; tauto|]. split; [reflexivity|]. run. compare. reflexivity.
  - exists (cellxy "1" "b" 1 4). split; [cbn; tauto|]. split; [reflexivity|]. run. compare. reflexivity.
  - exists (cellxy "1" "b" 1 4). split; [cbn; tauto|]. split; [reflexivity|]. run. compare. reflexivity.
  - exists (cellxy "1" "c" 1 1). split; [cbn; tauto|]. split; [reflexivity|]. run. compare. reflexivity.
Qed.
Lemma filtered_fits c : leaf_fits parse0 [] (MLeaf (Lf (LSum (Col c))) []) ["x > 0"] ["x > 0"] ["e"; "p"] dataxy.
Proof.
  split; [|split].
  - intros l fs [E|[]]. injection E as <- <-. split; [exact I|]. split; [intros [H|[]]; discriminate|]. intros f r Hi _. apply positive_same. destruct Hi as [<-|[]]. cbn. discriminate.
  - intros r c' Hr _ _. now apply data_cells.
  - intros k [[H _]|(r & Hr & _ & Hk)]; [discriminate|]. destruct (positive_row r Hr) as (r' & Hr' & Ek & Hp). rewrite Hk in Ek. split.
    + intros l fs [E|[]]. injection E as <- <-. split; [|exact I]. right. intros E.
      assert (In r' (used_rows parse0 ["e"; "p"] k ["x > 0"] dataxy)) as H; [|rewrite E in H; destruct H]. apply filter_In. split; [exact Hr'|]. rewrite Hp, Ek. cbn. now destruct (skey_dec _ _).
    + exists r'. split.
      * apply filter_In. split; [apply filter_In; auto|]. rewrite Ek. now destruct (skey_dec _ _).
      * cbn [sarg]. cbn in Hp. cbn. rewrite Hp. now apply data_cells.
Qed.
Lemma raw_case : exists e1 e2 e3 e4, mhl_raw mhl1 [] = Some (LLeaf [("sum(x)", e1); ("sum(y)", e2); ("sum(y)_1", e3); ("sum(x)_1", e4)] [] ["e"; "p"]).
Proof. match goal with |- exists _ _ _ _, ?q = _ => known q end. subst q'. eexists _, _, _, _. reflexivity. Qed.
Lemma supported_case : supported_mhl mhl1 [].
Proof.
  split; [discriminate|]. split; [reflexivity|]. split; [discriminate|]. split; [|split; [|split; [|split]]].
  - intros r [<-|[<-|[]]]; (split; [exact I|]; split; [exact I|]; split; cbn; repeat split; try discriminate; repeat constructor; cbn; intuition discriminate).
  - intros raw c E Hc. destruct raw_case as (e1 & e2 & e3 & e4 & R). rewrite R in E. injection E as <-. cbn in Hc. cbn. intuition (subst; discriminate).
  - cbn. repeat constructor; cbn; intuition discriminate.
  - intros r [<-|[<-|[]]]; cbn; intuition discriminate.
  - repeat constructor. intros [H _]. lazy -[Rplus Rmult Rinv Ropp IZR] in H. intuition (discriminate || match goal with H : _ |- _ => inversion H end).
Qed.
Lemma leaves_case : mhl_leaves_fit parse0 mhl1 [] dataxy.
Proof.
  intros r m Hr Hm mt ab lc bb Hb. destruct Hr as [<-|[<-|[]]]; destruct Hm as [-> | ->]; destruct Hb as [E|[]]; injection E as <- <- <- <-.
  - apply filtered_fits.
  - apply filtered_fits.
  - apply (sum_col_fits parse0 "y" []); [discriminate|intros []|intros f []|intros r c Hr _; now apply data_cells|intros r Hr; now apply data_cells].
  - apply (sum_col_fits parse0 "x" []); [discriminate|intros []|intros f []|intros r c Hr _; now apply data_cells|intros r Hr; now apply data_cells].
Qed.
Lemma fits_case : mhl_fits parse0 pd_sort mhl1 [] (pandas_table dataxy).
Proof.
  intros r fr Hr E. destruct Hr as [<-|[<-|[]]]; [rewrite kids_ctr in E|rewrite kids_inv in E]; injection E as <-.
  - split; [|split].
    + eexists _, _. split; [now left|reflexivity].
    + intros s c rest ka na kb nb _ _ H1 H2 E0. cbn in H1, H2.
      repeat match type of H1 with _ \/ _ => destruct H1 as [H1|H1] | False => destruct H1 end; injection H1 as H1 _ Ea; repeat match type of H2 with _ \/ _ => destruct H2 as [H2|H2] | False => destruct H2 end; injection H2 as H2 _ Eb; try congruence; subst; exfalso; lra.
    + intros res k v E Hv. change (mh 0 1 1 ["0"] false kids = Some res) in E. rewrite result_ctr in E. injection E as <-. destruct Hv as [Hv|[]]. injection Hv as _ <-. split; discriminate.
  - split; [|split].
    + eexists _, _. split; [now left|reflexivity].
    + intros s c rest ka na kb nb _ _ H1 H2 E0. cbn in H1, H2.
      repeat match type of H1 with _ \/ _ => destruct H1 as [H1|H1] | False => destruct H1 end; injection H1 as H1 _ Ea; repeat match type of H2 with _ \/ _ => destruct H2 as [H2|H2] | False => destruct H2 end; injection H2 as H2 _ Eb; try congruence; subst; exfalso; lra.
    + intros res k v E Hv. change (mh 0 1 1 ["0"] false kids2 = Some res) in E. rewrite result_inv in E. injection E as <-. destruct Hv as [Hv|[]]. injection Hv as _ <-. split; discriminate.
Qed.
Example C80_case : supported_mhl mhl1 [] /\ mhl_leaves_fit parse0 mhl1 [] dataxy /\ mhl_fits parse0 pd_sort mhl1 [] (pandas_table dataxy) /\
  mhl_pandas parse0 pd_sort mhl1 [] (pandas_table dataxy) = Some (["ctr MH Ratio"; "inv MH Ratio"], [(["1"], [Fin 50; Fin 775])]) /\
  exists raw, mhl_raw mhl1 [] = Some raw /\ lcolumns raw = ["sum(x)"; "sum(y)"; "sum(y)_1"; "sum(x)_1"].
Proof.
  split; [exact supported_case|]. split; [exact leaves_case|]. split; [exact fits_case|]. split; [exact result_mhl|].
  destruct raw_case as (e1 & e2 & e3 & e4 & R). eexists. split; [exact R|reflexivity].
Qed.

(** ** Where they differ *)
(** The same ratio under two names: pandas gives two columns, the query has one. *)
Theorem C80_two_names_refuted : let x := MHL ["e"] ["0"] ["p"] false [MHRatio "a" [] sum_x sum_y; MHRatio "b" [] sum_x sum_y] [] [] in
  (forall parse psort df names rows, mhl_pandas parse psort x [] df = Some (names, rows) -> names = ["a MH Ratio"; "b MH Ratio"]) /\
  (forall parse srt t names rows, mhl_sql parse srt x [] t = Some (names, rows) -> names = ["a MH Ratio"]).
Proof.
  cbn zeta. split.
  - intros parse psort df names rows E. apply C80_each_alone in E as [-> _]. reflexivity.
  - assert (exists e1 e2, mhl_raw (MHL ["e"] ["0"] ["p"] false [MHRatio "a" [] sum_x sum_y; MHRatio "b" [] sum_x sum_y] [] []) [] = Some (LLeaf [("sum(x)", e1); ("sum(y)", e2)] [] ["e"; "p"]) /\
      List.map fst (mhl_columns (MHL ["e"] ["0"] ["p"] false [MHRatio "a" [] sum_x sum_y; MHRatio "b" [] sum_x sum_y] [] []) [] (LLeaf [("sum(x)", e1); ("sum(y)", e2)] [] ["e"; "p"])) = ["a MH Ratio"]) as (e1 & e2 & R & C).
    { match goal with |- exists _ _, ?q = _ /\ _ => known q end. subst q'. eexists _, _. split; [reflexivity|].
      match goal with |- ?q = _ => known q end. subst q'. reflexivity. }
    intros parse srt t names rows E. unfold mhl_sql in E. rewrite R in E. injection E as <- _. exact C.
Qed.
