(** C66: MH computed by the generated SQL and by pandas gives the same rows. *)
From Coq Require Import Reals List Bool String Arith Permutation Sorted Lia Lra.
From Verif Require Import M_Num M_Frame L_Frame M_Ops S_Ops M_Leaf M_SqlGlobal M_SqlLeaf S_SqlLeaf L_SqlLeaf L_SqlLeaf2 M_SqlOps S_SqlOps L_SqlOps7 L_SqlBin L_SqlScope L_SqlSort M_SqlList S_SqlList M_SqlMH S_SqlMH L_SqlMH1 L_SqlMH4 P_SqlOps P_SqlList.
Import ListNotations.
Open Scope string_scope.
Open Scope list_scope.

(** A ratio of any two metrics of C62 with the same index columns, any condition columns, strata and filters; data that fits
    the two metrics (C62), in which the baseline occurs, no stratum has denominators that cancel and no sum over the strata
    of the baseline is 0 while the other one is not; any way the database and pandas sort. *)
Theorem C66_same_rows : forall parse srt psort t x split_by,
  db_sorts srt -> pandas_sorts psort -> supported_mh x split_by ->
  mh_leaves_fit parse x split_by t -> mh_fits parse psort x split_by (pandas_table t) ->
  exists result, mh_pandas parse psort x split_by (pandas_table t) = Some result /\
    same_rows (shown (split_by ++ mh_cond x ++ mh_rest x) (mh_value x) (mh_sql parse srt x split_by t)) result.
Proof. intros. now apply mh_same. Qed.
Print Assumptions C66_same_rows.
(** The table the baseline is joined with: every column it mentions is a column of its source, for any data; it has the
    index columns, the strata, the numerator and the denominator. *)
Theorem C66_well_formed : forall x split_by, supported_mh x split_by ->
  list_scoped (mh_raw x split_by) = true /\
  list_columns (mh_raw x split_by) = (split_by ++ mh_cond x ++ mh_strata x) ++ mh_rest x ++ [value_name (mh_numer x); value_name (mh_denom x)].
Proof. intros x s H. destruct (raw_scoped x s H) as [H1 H2]. split; [exact H1|]. rewrite H2. unfold mh_by. now rewrite <- app_assoc. Qed.

(** ** A case: MH("e", "0", "p", Ratio("x", "y"), where="x > 0") *)
Definition cellxy (e p : string) (x y : R) : srow := SRow (fun c => Some (if string_dec c "e" then e else p)) (fun c => Some (if string_dec c "x" then x else y)).
Definition sum_y := OLeaf (MLeaf (Lf (LSum (Col "y"))) []) "sum(y)".
Definition mh1 (b : bool) := MHOp ["e"] ["0"] ["p"] b sum_x sum_y "ctr" [] ["x > 0"].
Definition dataxy : stable :=
  [cellxy "0" "a" 1 2; cellxy "0" "b" 1 4; cellxy "1" "a" 2 2; cellxy "1" "b" 1 4; cellxy "1" "b" (-1) 7; cellxy "1" "c" 1 1].
Definition kids : frame2 := [(["0"; "a"], (Fin 1, Fin 2)); (["0"; "b"], (Fin 1, Fin 4)); (["1"; "a"], (Fin 2, Fin 2)); (["1"; "b"], (Fin 1, Fin 4)); (["1"; "c"], (Fin 1, Fin 1))].
Lemma sum_col_fits parse c fs by_ t : by_ <> [] -> ~ In "" fs -> (forall f, In f fs -> positive (parse f)) ->
  (forall r c, In r t -> In c by_ -> slab r c <> None) -> (forall r, In r t -> snum r c <> None) ->
  leaf_fits parse fs (MLeaf (Lf (LSum (Col c))) []) fs [] by_ t.
Proof.
  intros Hb Hf Hpos Hl Hx. split; [|split].
  - intros l gs [E|[]]. rewrite app_nil_r in E. injection E as <- <-. split; [exact I|]. split; [exact Hf|]. intros f r Hi _. apply positive_same. auto.
  - intros r c' Hr _ Hc. auto.
  - intros k [[H _]|(r & Hr & Hp & Hk)]; [contradiction|]. split.
    + intros l gs [E|[]]. rewrite app_nil_r in E. injection E as <- <-. split; [|exact I]. right. intros E.
      assert (In r (used_rows parse by_ k fs t)) as H; [|rewrite E in H; destruct H]. apply filter_In. split; [exact Hr|]. rewrite Hp, Hk. cbn. now destruct (skey_dec _ _).
    + exists r. split.
      * apply filter_In. split; [apply filter_In; auto|]. rewrite Hk. now destruct (skey_dec _ _).
      * cbn. apply Hx, Hr.
Qed.
Definition dataxy' : stable := [cellxy "0" "a" 1 2; cellxy "0" "b" 1 4; cellxy "1" "a" 2 2; cellxy "1" "b" 1 4; cellxy "1" "c" 1 1].
Lemma dataxy_filtered : filter (pfilters parse0 []) (filter (pfilters parse0 ["x > 0"]) (pandas_table dataxy)) = pandas_table dataxy'.
Proof. cbn -[Rltb]. compare. reflexivity. Qed.
Lemma kids_mh b : mh_children parse0 pd_sort (mh1 b) [] (pandas_table dataxy) = Some kids.
Proof.
  unfold mh_children. cbn zeta. cbn [mh1 mh_child_where mh_where mh_numer mh_denom]. rewrite dataxy_filtered.
  assert (op_compute parse0 pd_sort sum_x (mh_by (mh1 b) []) (pandas_table dataxy') = Some (List.map (fun kv => (fst kv, fst (snd kv))) kids)) as -> by (cbn; frames).
  assert (op_compute parse0 pd_sort sum_y (mh_by (mh1 b) []) (pandas_table dataxy') = Some (List.map (fun kv => (fst kv, snd (snd kv))) kids)) as -> by (cbn; frames).
  reflexivity.
Qed.
Lemma result_mh : mh_pandas parse0 pd_sort (mh1 false) [] (pandas_table dataxy) = Some [(["1"], Fin 50)].
Proof. unfold mh_pandas. rewrite kids_mh. run. compare. run. frames. Qed.
Example C66_case : supported_mh (mh1 false) [] /\ mh_leaves_fit parse0 (mh1 false) [] dataxy /\ mh_fits parse0 pd_sort (mh1 false) [] (pandas_table dataxy) /\
  mh_pandas parse0 pd_sort (mh1 false) [] (pandas_table dataxy) = Some [(["1"], Fin 50)].
Proof.
  split; [|split; [|split]].
  - split; [discriminate|]. split; [reflexivity|]. repeat split; try discriminate.
    all: try (cbn; repeat constructor; cbn; intuition discriminate).
    all: try (cbn; repeat split; try discriminate; intuition discriminate).
    + intros H. lazy -[Rplus Rmult Rinv Ropp IZR] in H. inversion H.
  - assert (forall r, In r dataxy -> (forall c, slab r c <> None) /\ (forall c, snum r c <> None)) as HD.
    { intros r Hr. unfold dataxy in Hr. cbn [In] in Hr. repeat (destruct Hr as [<-|Hr]; [split; discriminate|]). destruct Hr. }
    intros m Hm mt ab lc bb Hb. destruct Hm as [-> | ->]; destruct Hb as [E|[]]; injection E as <- <- <- <-.
    + apply (sum_col_fits parse0 "x" ["x > 0"]); [discriminate|intros [H|[]]; discriminate|intros; cbn; discriminate|intros r c Hr _; now apply HD|intros r Hr; now apply HD].
    + apply (sum_col_fits parse0 "y" ["x > 0"]); [discriminate|intros [H|[]]; discriminate|intros; cbn; discriminate|intros r c Hr _; now apply HD|intros r Hr; now apply HD].
  - split; [exact I|]. split; [exact I|]. intros fr E. rewrite kids_mh in E. injection E as <-. split; [|split].
    + eexists _, _. split; [now left|reflexivity].
    + intros s c rest ka na kb nb _ _ H1 H2 E. cbn in H1, H2. 
      repeat (destruct H1 as [H1|H1]; [injection H1 as H1 _ Ea|]); try (destruct H1); repeat (destruct H2 as [H2|H2]; [injection H2 as H2 _ Eb; subst; exfalso; lra|]); destruct H2.
    + intros res k v E Hv. pose proof result_mh as R. unfold mh_pandas in R. rewrite kids_mh in R. change (mh 0 1 1 ["0"] false kids = Some [(["1"], Fin 50)]) in R. change (mh 0 1 1 ["0"] false kids = Some res) in E. rewrite R in E. injection E as <-. destruct Hv as [Hv|[]]. injection Hv as _ <-. split; discriminate.
  - exact result_mh.
Qed.

(** ** Where they differ *)
Definition mh0 := MHOp ["e"] ["0"] ["p"] false sum_x sum_y "ctr" [] [].
Lemma raw0 : mh_raw mh0 [] = One (LLeaf [("sum(x)", XAgg (SUM (AIf [] (Col "x")))); ("sum(y)", XAgg (SUM (AIf [] (Col "y"))))] [] ["e"; "p"]).
Proof. match goal with |- ?q = _ => known q end. subst q'. reflexivity. Qed.
(** No row of the baseline: pandas raises a KeyError, the query gives NULL. *)
Theorem C66_no_baseline_refuted : let t := [cellxy "1" "a" 1 2] in
  mh_pandas parse0 pd_sort mh0 [] (pandas_table t) = None /\ shown ["e"] "ctr MH Ratio" (mh_sql parse0 db_sort mh0 [] t) = [([Some "1"], NaN)].
Proof. cbn zeta. split; [reflexivity|]. unfold mh_sql. cbn zeta. rewrite raw0. run. compare. run. frames. Qed.
(** Nothing in the numerators of the baseline: pandas gives infinity, the query NULL. *)
Theorem C66_zero_baseline_refuted : let t := [cellxy "0" "a" 0 2; cellxy "1" "a" 1 2] in
  mh_pandas parse0 pd_sort mh0 [] (pandas_table t) = Some [(["1"], PInf)] /\ shown ["e"] "ctr MH Ratio" (mh_sql parse0 db_sort mh0 [] t) = [([Some "1"], NaN)].
Proof.
  cbn zeta. split.
  - assert (mh_children parse0 pd_sort mh0 [] (pandas_table [cellxy "0" "a" 0 2; cellxy "1" "a" 1 2]) = Some [(["0"; "a"], (Fin 0, Fin 2)); (["1"; "a"], (Fin 1, Fin 2))]) as E by (cbn; frames).
    unfold mh_pandas. rewrite E. run. compare. run. frames.
  - unfold mh_sql. cbn zeta. rewrite raw0. run. compare. run. frames.
Qed.
(** The denominators of a stratum cancel: pandas multiplies with infinity, the query leaves the stratum out. *)
Theorem C66_cancel_refuted : let t := [cellxy "0" "a" 1 (-2); cellxy "1" "a" 1 2; cellxy "0" "b" 1 2; cellxy "1" "b" 1 2] in
  mh_pandas parse0 pd_sort mh0 [] (pandas_table t) = Some [(["1"], NaN)] /\ shown ["e"] "ctr MH Ratio" (mh_sql parse0 db_sort mh0 [] t) = [([Some "1"], Fin 0)].
Proof.
  cbn zeta. split.
  - assert (mh_children parse0 pd_sort mh0 [] (pandas_table [cellxy "0" "a" 1 (-2); cellxy "1" "a" 1 2; cellxy "0" "b" 1 2; cellxy "1" "b" 1 2]) = Some [(["0"; "a"], (Fin 1, Fin (-2))); (["0"; "b"], (Fin 1, Fin 2)); (["1"; "a"], (Fin 1, Fin 2)); (["1"; "b"], (Fin 1, Fin 2))]) as E by (cbn; frames).
    unfold mh_pandas. rewrite E. run. compare. run. frames.
  - unfold mh_sql. cbn zeta. rewrite raw0. run. compare. run. frames.
Qed.
