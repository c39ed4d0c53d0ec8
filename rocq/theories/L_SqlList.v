(** The tables of a MetricList: merged queries keep the rows of each child. *)
From Coq Require Import Reals List Bool String Arith Permutation Sorted Lia Lra.
From Verif Require Import M_Num M_Frame L_Frame M_Ops S_Ops L_OpsA L_OpsB L_OpsC M_SqlGlobal L_SqlGlobal M_SqlLeaf S_SqlLeaf L_SqlLeaf L_SqlLeaf2 M_SqlOps S_SqlOps L_SqlOps L_SqlOps2 L_SqlOps3 L_SqlOps4 L_SqlOps5 L_SqlOps6 L_SqlBin L_SqlBin2 L_SqlBin3 M_SqlList S_SqlList.
Import ListNotations.
Open Scope string_scope.
Open Scope list_scope.

Definition exprs (vals : list (string * vx)) : list (string * cx) := List.map (fun p => (fst p, Expr (snd p))) vals.
Definition all_orders (vals : list (string * vx)) : list (list okey) := flat_map (fun p => orders (snd p)) vals.
Definition one_order (vals : list (string * vx)) : Prop := forall p, In p vals -> orders (snd p) = [] \/ hd_error (all_orders vals) = hd_error (orders (snd p)).
(** a table and the queries it stands for *)
Inductive tform (idx : list string) : list (string * sqlq) -> ltable -> Prop :=
  | tf_leaf vals wh : tform idx (List.map (fun p => (fst p, SqlLeaf (Query (snd p) wh idx) (fst p))) vals) (LLeaf vals wh idx)
  | tf_sel vals from w : (forall p, In p vals -> aggregate (snd p) = false) -> (idx = [] -> array_source from = true) -> one_order vals ->
      tform idx (List.map (fun p => (fst p, sel1 idx (fst p) (snd p) from w)) vals) (LSel (pass_all idx ++ exprs vals) from w [])
  | tf_group vals from w : (idx = [] -> vals <> [] /\ array_source from = false /\ forall p, In p vals -> aggregate (snd p) = true) ->
      tform idx (List.map (fun p => (fst p, SqlSel [(fst p, Expr (snd p))] from w idx)) vals) (LSel (exprs vals) from w idx).

Lemma exprs_fst vals : List.map fst (exprs vals) = List.map fst vals.
Proof. unfold exprs. rewrite map_map. reflexivity. Qed.
Lemma assoc_app {A} c (a b : list (string * A)) : assoc c (a ++ b) = match assoc c a with Some x => Some x | None => assoc c b end.
Proof. induction a as [|[k x] a IH]; [reflexivity|]. cbn. destruct (String.eqb k c); auto. Qed.
Lemma assoc_In {A} c (x : A) l : NoDup (List.map fst l) -> In (c, x) l -> assoc c l = Some x.
Proof.
  induction l as [|[k y] l IH]; [intros _ []|]. cbn. intros H. inversion H; subst. intros [E|Hi].
  - injection E as -> ->. now rewrite String.eqb_refl.
  - destruct (String.eqb k c) eqn:E; [|auto]. apply String.eqb_eq in E. subst. exfalso. apply H2. now apply (in_map fst) in Hi.
Qed.
Lemma assoc_None {A} c (l : list (string * A)) : ~ In c (List.map fst l) -> assoc c l = None.
Proof. induction l as [|[k y] l IH]; [reflexivity|]. cbn. intros H. destruct (String.eqb k c) eqn:E; [apply String.eqb_eq in E; tauto|auto]. Qed.
Lemma existsb_aggregate idx vals : existsb (fun c => aggregate_col (snd c)) (pass_all idx ++ exprs vals) = existsb (fun p => aggregate (snd p)) vals.
Proof. rewrite existsb_app, existsb_pass_all. cbn [orb]. unfold exprs. rewrite existsb_map. reflexivity. Qed.
Lemma order_of_exprs idx vals : order_of (pass_all idx ++ exprs vals) = hd_error (all_orders vals).
Proof.
  unfold order_of. assert (flat_map (fun c => match snd c with Expr v => orders v | _ => [] end) (pass_all idx ++ exprs vals) = all_orders vals) as ->.
  { rewrite flat_map_app. assert (flat_map (fun c : string * cx => match snd c with Expr v => orders v | _ => [] end) (pass_all idx) = []) as -> by (induction idx; auto).
    cbn [app]. unfold exprs, all_orders. induction vals as [|p vals IH]; [reflexivity|]. cbn. now rewrite IH. }
  now destruct (all_orders vals).
Qed.

Section Rows.
  Variables (parse : string -> cond) (srt : list okey -> list env -> list env) (t : stable) (idx : list string).
  Hypothesis Hsrt : db_sorts srt.
  Hypothesis Hd : NoDup idx.

  Lemma sel_rows vals from w v x : NoDup (List.map fst vals) -> (forall p, In p vals -> aggregate (snd p) = false) -> In (v, x) vals -> ~ In v idx ->
    let envs := filter (where_pass w) (run_src parse srt from t) in
    obs idx v (run_sql parse srt (SqlSel (pass_all idx ++ exprs vals) from w []) t) =
    List.map (fun p => (key_of idx (snd p), value envs (fst p) (snd p) x)) (prefixes [] (match hd_error (all_orders vals) with Some o => srt o envs | None => envs end)).
  Proof.
    intros HN Ha Hin Hv envs. rewrite run_sql_sel. cbn zeta. rewrite existsb_aggregate.
    assert (existsb (fun p : string * vx => aggregate (snd p)) vals = false) as ->. { apply not_true_is_false. intros E. apply existsb_exists in E as (p & Hp & E). rewrite (Ha p Hp) in E. discriminate. }
    unfold select. rewrite order_of_exprs. fold envs. unfold obs. rewrite map_map. apply map_ext. intros p. f_equal.
    - unfold key_of. apply map_ext_in. intros c Hc. rewrite assoc_app, assoc_pass_all, (proj2 (mem_in c idx) Hc). reflexivity.
    - rewrite assoc_app, assoc_pass_all. pose proof (proj2 (mem_false v idx) Hv) as E. rewrite E. unfold exprs.
      rewrite (assoc_In v (Expr x)); [cbn [column_cell]; apply number_of_number| |].
      + fold (exprs vals). now rewrite exprs_fst.
      + apply in_map_iff. exists (v, x). auto.
  Qed.
  Lemma group_rows_many vals from w v x : NoDup (List.map fst vals) -> (idx = [] -> forall p, In p vals -> aggregate (snd p) = true) -> In (v, x) vals -> ~ In v idx ->
    obs idx v (run_sql parse srt (SqlSel (exprs vals) from w idx) t) =
    List.map (fun k => (k, value (members parse srt t idx from w k) (members parse srt t idx from w k) (group_env idx k) x)) (groups parse srt t idx from w).
  Proof.
    intros HN Ha Hin Hv. set (envs := filter (where_pass w) (run_src parse srt from t)).
    assert (run_sql parse srt (SqlSel (exprs vals) from w idx) t = select_group (exprs vals) idx envs) as ->.
    { rewrite run_sql_sel. cbn zeta. fold envs. destruct idx as [|c l]; [|reflexivity].
      assert (existsb (fun c => aggregate_col (snd c)) (exprs vals) = true) as ->; [|reflexivity]. apply existsb_exists. exists (v, Expr x). split; [|apply (Ha eq_refl _ Hin)]. apply in_map_iff. exists (v, x). auto. }
    unfold select_group. fold envs. unfold obs. rewrite map_map. unfold groups. fold envs. apply map_ext_in. intros k Hk.
    assert (List.length k = List.length idx) as Hl by (apply (groups_len parse srt t idx v Hd Hv from w); exact Hk). f_equal.
    - etransitivity; [|apply (map_assoc_combine idx k Hd Hl)]. apply map_ext_in. intros c Hc. apply mem_in in Hc. rewrite Hc. apply label_of_label.
    - pose proof (proj2 (mem_false v idx) Hv) as E. rewrite E. unfold exprs.
      rewrite (assoc_In v (Expr x)); [cbn [column_cell]; rewrite number_of_number; reflexivity| |].
      + fold (exprs vals). now rewrite exprs_fst.
      + apply in_map_iff. exists (v, x). auto.
  Qed.
  Lemma leaf_rows_many vals wh v x : NoDup (List.map fst vals) -> In (v, x) vals -> ~ In v idx ->
    obs idx v (run_table parse srt (LLeaf vals wh idx) t) = List.map (fun k => (k, sexpr_value parse x (M_SqlLeaf.group idx k (filter (spass parse wh) t)))) (leaf_groups parse t idx wh).
  Proof.
    intros HN Hin Hv. cbn [run_table]. fold (leaf_groups parse t idx wh). unfold obs. rewrite map_map. apply map_ext_in. intros k Hk. apply (leaf_groups_len parse t idx v Hd Hv) in Hk. f_equal.
    - etransitivity; [|apply (map_assoc_combine idx _ Hd Hk)]. apply map_ext_in. intros c Hc. destruct (assoc_in idx k c Hk Hc) as [s ->]. apply label_of_label.
    - rewrite assoc_out by assumption. rewrite (assoc_In v x) by assumption. apply number_of_number.
  Qed.

  (** each child's rows are the table's *)
  Lemma table_rows ch T : tform idx ch T -> NoDup (List.map fst ch) -> (forall v, In v (List.map fst ch) -> ~ In v idx) ->
    forall v q, In (v, q) ch -> Permutation (obs idx v (run_table parse srt T t)) (obs idx v (run_sql parse srt q t)).
  Proof.
    intros H. destruct H as [vals wh|vals from w Ha _ Ho|vals from w Ha]; rewrite map_map; cbn [fst]; intros HN Hv v q Hq; apply in_map_iff in Hq as ([v' x] & E & Hx); cbn [fst snd] in E; injection E as <- <-;
    assert (~ In v' idx) as Hv' by (apply Hv, in_map_iff; exists (v', x); auto).
    - rewrite (leaf_rows_many vals wh v' x), leaf_rows by assumption. apply Permutation_refl.
    - cbn [run_table]. rewrite (sel_rows vals from w v' x) by assumption. cbn zeta. rewrite run_sel1 by (auto; apply (Ha _ Hx)). cbn zeta. set (envs := filter (where_pass w) (run_src parse srt from t)).
      destruct (Ho _ Hx) as [E|E]; cbn [snd] in E.
      + rewrite E. transitivity (List.map (fun p => (fun e => (key_of idx e, value envs [] e x)) (snd p)) (prefixes [] (match hd_error (all_orders vals) with Some o => srt o envs | None => envs end))).
        { erewrite map_ext; [apply Permutation_refl|]. intros p. cbn beta. f_equal. now apply value_no_pre. }
        rewrite (prefixes_snd (fun e => (key_of idx e, value envs [] e x))). transitivity (List.map (fun p => (fun e => (key_of idx e, value envs [] e x)) (snd p)) (prefixes [] envs)).
        2:{ erewrite map_ext; [apply Permutation_refl|]. intros p. cbn beta. f_equal. now apply value_no_pre. }
        rewrite (prefixes_snd (fun e => (key_of idx e, value envs [] e x))). apply Permutation_map. destruct (hd_error _); [apply Hsrt|apply Permutation_refl].
      + rewrite E. destruct (orders x); apply Permutation_refl.
    - cbn [run_table]. assert (idx = [] -> forall p, In p vals -> aggregate (snd p) = true) as Hg by (intros E; apply (Ha E)).
      rewrite (group_rows_many vals from w v' x), grouped_rows; auto. intros E. exact (Hg E _ Hx).
  Qed.
End Rows.

(** ** Merging *)
Lemma free_alias_unused fuel a used : ~ In a used -> free_alias fuel 0 a used = a.
Proof. intros H. destruct fuel as [|f]; [reflexivity|]. cbn [free_alias with_suffix]. apply mem_false in H. now rewrite H. Qed.
Lemma add_column_new {A} (cols : list (string * A)) v x : (forall d, In d cols -> snd d <> x) -> ~ In v (List.map fst cols) -> add_column cols (v, x) = cols ++ [(v, x)].
Proof.
  intros H1 H2. unfold add_column. cbn [fst snd]. rewrite free_alias_unused by assumption.
  destruct (existsb _ cols) eqn:E; [|reflexivity]. apply existsb_exists in E as (d & Hd & E). apply same_eq in E. now destruct (H1 d Hd).
Qed.
Lemma add_column_old {A} (cols : list (string * A)) c : (exists d, In d cols /\ snd d = snd c) -> add_column cols c = cols.
Proof. intros (d & Hd & E). unfold add_column. rewrite (proj2 (existsb_exists _ _)); [reflexivity|]. exists d. split; [exact Hd|]. rewrite E. apply same_refl. Qed.
Lemma add_pass idx l cols : incl l idx -> fold_left add_column (pass_all l) (pass_all idx ++ cols) = pass_all idx ++ cols.
Proof.
  induction l as [|c l IH]; intros H; [reflexivity|]. cbn. rewrite add_column_old; [apply IH; intros z Hz; apply H; now right|].
  exists (c, Pass c). split; [|reflexivity]. apply in_or_app. left. unfold pass_all. apply in_map_iff. exists c. split; [reflexivity|]. apply H. now left.
Qed.

Lemma tform_one idx v run q : form idx v run q -> tform idx [(v, q)] (table_of q).
Proof.
  intros H. destruct H as [[c w b] E|x from w Ha Ho Hs|x from w Ha]; cbn [table_of q_by q_col q_where] in *.
  - subst b. apply (tf_leaf idx [(v, c)] w).
  - apply (tf_sel idx [(v, x)] from w); [intros p [<-|[]]; exact Ha|exact Hs|]. intros p [<-|[]]. right. cbn. now rewrite app_nil_r.
  - apply (tf_group idx [(v, x)] from w). intros E. destruct (Ha E). split; [discriminate|]. split; [assumption|]. intros p [<-|[]]. assumption.
Qed.
Lemma all_orders_snoc vals p : all_orders (vals ++ [p]) = all_orders vals ++ orders (snd p).
Proof. unfold all_orders. rewrite flat_map_app. cbn. now rewrite app_nil_r. Qed.
Lemma exprs_snoc vals p : exprs (vals ++ [p]) = exprs vals ++ [(fst p, Expr (snd p))].
Proof. unfold exprs. now rewrite map_app. Qed.
(** a compatible query joins the table *)
Lemma merge_tform idx ch T v run q T' : tform idx ch T -> ch <> [] -> form idx v run q -> ~ In v idx -> ~ In v (List.map fst ch) ->
  (forall p, In p ch -> ~ renamed (snd p) q) -> merge T (table_of q) = Some T' -> tform idx (ch ++ [(v, q)]) T'.
Proof.
  intros HT Hne Hq Hv Hvc Hren HM.
  destruct HT as [vals wh|vals from w Ha Hs Ho|vals from w Ha]; destruct Hq as [[c w1 b] E|x from1 w1 Ha1 Ho1 Hs1|x from1 w1 Ha1]; unfold sel1 in HM; cbn [table_of merge q_by q_where q_col] in HM; try discriminate.
  - cbn [q_by] in E. subst b. destruct (same wh w1) eqn:Ew; [|discriminate]. apply same_eq in Ew. subst w1. rewrite same_refl in HM. cbn [andb] in HM. injection HM as <-.
    cbn [fold_left]. rewrite add_column_new.
    + pose proof (tf_leaf idx (vals ++ [(v, c)]) wh) as H. rewrite map_app in H. exact H.
    + intros [v0 x0] H0 E. cbn [snd] in E. subst x0. apply (Hren (v0, SqlLeaf (Query c wh idx) v0)); [|constructor]. apply in_map_iff. exists (v0, c). auto.
    + rewrite map_map in Hvc. exact Hvc.
  - match type of HM with (if ?b then _ else _) = _ => destruct b eqn:E; [|discriminate] end. apply andb_prop in E as [E Eo]. apply andb_prop in E as [E _]. apply andb_prop in E as [E1 E2]. apply same_eq in E1, E2. subst from1 w1. injection HM as <-.
    rewrite fold_left_app, add_pass by (intros z; auto). cbn [fold_left]. rewrite add_column_new.
    + rewrite <- app_assoc. change ([(v, Expr x)]) with (exprs [(v, x)]). unfold exprs. rewrite <- map_app. fold (exprs (vals ++ [(v, x)])).
      pose proof (tf_sel idx (vals ++ [(v, x)]) from w) as H. rewrite map_app in H. apply H; auto.
      * intros p Hp. apply in_app_or in Hp as [Hp|[<-|[]]]; auto.
      * rewrite order_of_exprs in Eo. change (pass_all idx ++ [(v, Expr x)]) with (pass_all idx ++ exprs [(v, x)]) in Eo. rewrite order_of_exprs in Eo. unfold all_orders at 2 in Eo. cbn in Eo. rewrite app_nil_r in Eo.
        intros p Hp. rewrite all_orders_snoc. cbn [snd]. apply in_app_or in Hp as [Hp|[<-|[]]].
        -- destruct (Ho p Hp) as [H0|H0]; [auto|]. destruct (orders (snd p)) as [|o l] eqn:Ep; [auto|]. right. destruct (all_orders vals); [discriminate|]. exact H0.
        -- cbn [snd]. destruct (all_orders vals); [auto|]. destruct (orders x); [auto|discriminate].
    + intros [v0 x0] H0 E. cbn [snd] in E. subst x0. apply in_app_or in H0 as [H0|H0]; [apply in_map_iff in H0 as (c & E & _); discriminate|].
      apply in_map_iff in H0 as ([v1 x1] & E & H0). cbn in E. injection E as -> ->. apply (Hren (v0, sel1 idx v0 x from w)); [|unfold sel1; constructor]. apply in_map_iff. exists (v0, x). auto.
    + rewrite map_app, exprs_fst. intros H. apply in_app_or in H as [H|H]; [apply Hv; unfold pass_all in H; rewrite map_map in H; now rewrite map_id in H|]. apply Hvc. now rewrite map_map.
  - match type of HM with (if ?b then _ else _) = _ => destruct b eqn:E; [|discriminate] end. exfalso. apply andb_prop in E as [E Eo]. apply andb_prop in E as [E E3]. apply andb_prop in E as [E1 E2]. apply same_eq in E1, E2, E3. subst.
    destruct (Ha1 eq_refl). specialize (Hs eq_refl). congruence.
  - match type of HM with (if ?b then _ else _) = _ => destruct b eqn:E; [|discriminate] end. exfalso. apply andb_prop in E as [E Eo]. apply andb_prop in E as [E E3]. apply andb_prop in E as [E1 E2]. apply same_eq in E1, E2, E3. subst.
    destruct (Ha eq_refl) as (_ & A & _). specialize (Hs1 eq_refl). congruence.
  - match type of HM with (if ?b then _ else _) = _ => destruct b eqn:E; [|discriminate] end. apply andb_prop in E as [E Eo]. apply andb_prop in E as [E _]. apply andb_prop in E as [E1 E2]. apply same_eq in E1, E2. subst from1 w1. injection HM as <-.
    cbn [fold_left]. rewrite add_column_new.
    + change ([(v, Expr x)]) with (exprs [(v, x)]). unfold exprs. rewrite <- map_app. fold (exprs (vals ++ [(v, x)])).
      pose proof (tf_group idx (vals ++ [(v, x)]) from w) as H. rewrite map_app in H. apply H. intros E. destruct (Ha E) as (_ & A & B). destruct (Ha1 E). split; [destruct vals; discriminate|]. split; [assumption|].
      intros p Hp. apply in_app_or in Hp as [Hp|[<-|[]]]; auto.
    + intros [v0 x0] H0 E. cbn [snd] in E. subst x0.
      apply in_map_iff in H0 as ([v1 x1] & E & H0). cbn in E. injection E as -> ->. apply (Hren (v0, SqlSel [(v0, Expr x)] from w idx)); [|apply (renamed_sel [])]. apply in_map_iff. exists (v0, x). auto.
    + rewrite exprs_fst. intros H. apply Hvc. now rewrite map_map.
Qed.

(** the table has the index and the values of its queries, and is well scoped if they are *)
Lemma tform_columns idx ch T : tform idx ch T -> (forall v, In v (List.map fst ch) -> ~ In v idx) -> lall_columns T = idx ++ List.map fst ch.
Proof.
  intros H Hv. destruct H as [vals wh|vals from w _ _ _|vals from w _]; unfold lall_columns; cbn [lgroupby lcolumns].
  - rewrite map_map in *. cbn [fst] in *. f_equal. apply filter_all. intros c Hc. now rewrite (proj2 (mem_false c idx) (Hv c Hc)).
  - cbn [app]. rewrite map_map in *. cbn [fst] in *. rewrite map_app, exprs_fst. unfold pass_all. rewrite map_map, map_id. apply filter_all. reflexivity.
  - rewrite map_map in *. cbn [fst] in *. rewrite exprs_fst. f_equal. apply filter_all. intros c Hc. now rewrite (proj2 (mem_false c idx) (Hv c Hc)).
Qed.
Lemma flat_map_exprs vals : flat_map (fun c => crefs (snd c)) (exprs vals) = flat_map (fun p => vrefs (snd p)) vals.
Proof. unfold exprs. induction vals as [|p vals IH]; [reflexivity|]. cbn. now rewrite IH. Qed.
Lemma tform_scoped idx ch T : tform idx ch T -> ch <> [] -> (forall p, In p ch -> well_scoped (snd p) = true) -> table_scoped T = true.
Proof.
  intros H Hne Hs. destruct H as [vals wh|vals from w _ _ _|vals from w _]; cbn [table_scoped]; [reflexivity| |]; destruct vals as [|p0 vals]; try (now contradiction Hne).
  - assert (forall p, In p (p0 :: vals) -> well_scoped (sel1 idx (fst p) (snd p) from w) = true) as H. { intros p Hp. apply (Hs (fst p, sel1 idx (fst p) (snd p) from w)). apply in_map_iff. exists p. auto. }
    rewrite well_scoped_sel. apply andb_true_intro. split.
    + apply forallb_forall. intros r Hr. rewrite flat_map_app, flat_map_pass, flat_map_exprs in Hr. rewrite !in_app_iff in Hr.
      assert (exists p, In p (p0 :: vals) /\ In r (List.map Plain idx ++ vrefs (snd p) ++ wrefs w)) as (p & Hp & Hr').
      { destruct Hr as [[Hr|Hr]|[Hr|[]]].
        - exists p0. split; [now left|]. apply in_or_app. auto.
        - apply in_flat_map in Hr as (p & Hp & Hr). exists p. split; [exact Hp|]. apply in_or_app. right. apply in_or_app. auto.
        - exists p0. split; [now left|]. apply in_or_app. right. apply in_or_app. auto. }
      apply H in Hp. apply well_scoped_sel1 in Hp as [Hp _]. auto.
    + specialize (H p0 (or_introl eq_refl)). apply well_scoped_sel1 in H. apply H.
  - assert (forall p, In p (p0 :: vals) -> well_scoped (SqlSel [(fst p, Expr (snd p))] from w idx) = true) as H. { intros p Hp. apply (Hs (fst p, SqlSel [(fst p, Expr (snd p))] from w idx)). apply in_map_iff. exists p. auto. }
    rewrite well_scoped_sel. apply andb_true_intro. split.
    + apply forallb_forall. intros r Hr. rewrite flat_map_exprs in Hr. rewrite !in_app_iff in Hr.
      assert (exists p, In p (p0 :: vals) /\ In r (vrefs (snd p) ++ wrefs w ++ List.map Plain idx)) as (p & Hp & Hr').
      { destruct Hr as [Hr|Hr].
        - apply in_flat_map in Hr as (p & Hp & Hr). exists p. split; [exact Hp|]. apply in_or_app. auto.
        - exists p0. split; [now left|]. apply in_or_app. right. apply in_or_app. auto. }
      apply H in Hp. rewrite well_scoped_sel in Hp. apply andb_prop in Hp as [Hp _]. rewrite forallb_forall in Hp. apply Hp. cbn [flat_map crefs snd]. now rewrite app_nil_r.
    + specialize (H p0 (or_introl eq_refl)). rewrite well_scoped_sel in H. now apply andb_prop in H.
Qed.
