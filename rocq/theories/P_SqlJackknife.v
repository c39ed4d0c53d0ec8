(** C65: a Jackknife computed by the generated SQL and by pandas gives the same rows (general path: the
    leave-one-out samples are made by a join). *)
From Coq Require Import Reals List Bool String Arith ZArith Permutation Sorted Lia Lra.
From Verif Require Import M_Num M_Frame L_Frame M_Ops S_Ops M_Leaf M_Jackknife S_Jackknife L_Jackknife L_Jackknife2 L_Jackknife3 L_JackSE M_SqlGlobal M_SqlLeaf S_SqlLeaf L_SqlLeaf L_SqlLeaf2 M_SqlOps S_SqlOps L_SqlOps7 L_SqlBin L_SqlScope L_SqlSort M_SqlJackknife S_SqlJackknife L_SqlJack4 L_SqlJack6 L_SqlJack7 P_SqlOps.
Import ListNotations.
Open Scope string_scope.
Open Scope list_scope.

(** Jackknife(unit, m, where=where_), any operation or arithmetic of C62 as [m], split by any columns: on data where
    the child agrees (C62) on the table and on every sample (the slice [k] without the unit [x]), and every row has a unit.
    Both give the same index, point estimates and standard errors. *)
Theorem C65_same_rows : forall parse srt psort where_ unit m split_by t0,
  let t := filter (spass parse where_) t0 in
  let index := split_by ++ extra_idx m in
  db_sorts srt -> pandas_sorts psort ->
  (forall f, ~ In resample_idx (cond_labels (parse f))) ->
  supported_tree (split_by ++ [resample_idx]) m -> ~ In (se_name (value_name m)) index ->
  (forall f r, In f where_ -> In r t0 -> same_verdict (parse f) r) ->
  (forall r, In r t -> slab r unit <> None) ->
  child_fits parse psort m split_by t ->
  (forall k x, unit_in split_by unit k x t -> left_out split_by unit k x t <> [] ->
     child_fits parse psort m [] (left_out split_by unit k x t) /\ every_leaf_has_rows parse m (left_out split_by unit k x t)) ->
  (exists k x, unit_in split_by unit k x t /\ left_out split_by unit k x t <> []) ->
  exists result, jackknife_pandas parse psort where_ unit m split_by (pandas_table t0) = Some result /\
    jk_same_rows (jk_shown index (value_name m) (jackknife_sql parse srt where_ unit m split_by t0)) result.
Proof.
  intros parse srt psort where_ unit m s t0 t index H1 H2 H3 H4 H5 H6 H7 H8 H9 H10.
  destruct (same parse srt psort where_ unit m s t0 H1 H2 H3 H4 H5 H6 H7 H8 H9 H10) as (F & E & H & _). eauto.
Qed.
Print Assumptions C65_same_rows.

(** With a confidence level: the bounds made of the columns of the query are those of pandas, for any quantile function. *)
Theorem C65_same_bounds : forall parse srt psort where_ unit m split_by t0 ppf confidence,
  let t := filter (spass parse where_) t0 in
  let index := split_by ++ extra_idx m in
  db_sorts srt -> pandas_sorts psort ->
  (forall f, ~ In resample_idx (cond_labels (parse f))) ->
  supported_tree (split_by ++ [resample_idx]) m -> ~ In (se_name (value_name m)) index -> ~ In (dof_name (value_name m)) index ->
  (forall f r, In f where_ -> In r t0 -> same_verdict (parse f) r) ->
  (forall r, In r t -> slab r unit <> None) ->
  child_fits parse psort m split_by t ->
  (forall k x, unit_in split_by unit k x t -> left_out split_by unit k x t <> [] ->
     child_fits parse psort m [] (left_out split_by unit k x t) /\ every_leaf_has_rows parse m (left_out split_by unit k x t)) ->
  (exists k x, unit_in split_by unit k x t /\ left_out split_by unit k x t <> []) ->
  exists result, jackknife_pandas parse psort where_ unit m split_by (pandas_table t0) = Some result /\
    jk_same_bounds ppf confidence (jk_bounds ppf confidence index (value_name m) (jackknife_sql parse srt where_ unit m split_by t0)) result.
Proof.
  intros parse srt psort where_ unit m s t0 ppf cf t index H1 H2 H3 H4 H5 H5' H6 H7 H8 H9 H10.
  destruct (same parse srt psort where_ unit m s t0 H1 H2 H3 H4 H5 H6 H7 H8 H9 H10) as (F & E & _ & H). exists F. split; [exact E|]. now apply H.
Qed.
Print Assumptions C65_same_bounds.

(** The resampled table: sample [x] of slice [k] has exactly the rows of the slice whose unit is not [x], for every unit
    that the slice has, and there are no other rows. *)
Theorem C65_samples : forall split_by unit t k x,
  ~ In resample_idx split_by -> (forall r, In r t -> slab r unit <> None) -> unit_in split_by unit k x t ->
  filter (fun r => if skey_dec (srow_key (split_by ++ [resample_idx]) r) (List.map Some k ++ [Some x]) then true else false) (jk_general split_by unit t) =
  List.map (fun r => SRow (fun c => if String.eqb c resample_idx then Some x else slab r c) (snum r)) (left_out split_by unit k x t).
Proof. intros s unit t k x H1 H2 H3. pose proof (jk_group s unit t H1 H2 k x H3) as H. rewrite map_app in H. exact H. Qed.
Theorem C65_no_other_samples : forall split_by unit t r',
  ~ In resample_idx split_by -> (forall r c, In r t -> In c split_by -> slab r c <> None) -> In r' (jk_general split_by unit t) ->
  exists k x, srow_key (split_by ++ [resample_idx]) r' = List.map Some k ++ [Some x] /\ unit_in split_by unit k x t /\ left_out split_by unit k x t <> [].
Proof.
  intros s unit t r' H1 H2 H3. destruct (jk_row s unit t H2 r' H3) as (k & x & r & -> & Hu & Hr). exists k, x. split.
  - rewrite srow_key_idx by assumption. unfold left_out in Hr. apply filter_In in Hr as [_ Hr]. apply andb_true_iff in Hr as [Hr _]. destruct (skey_dec _ _) as [->|]; [reflexivity|discriminate].
  - split; [exact Hu|]. intros E. now rewrite E in Hr.
Qed.
Print Assumptions C65_samples.

(** The standard error that the query computes is the formula of the jackknife; NULL for fewer than two replicates. *)
Theorem C65_se_formula : forall l, (2 <= List.length l)%nat -> se_of (List.map Some l) = Some (sqrt ((len l - 1) / len l * spread l)).
Proof.
  intros l H. pose proof (se_jk (List.map Some l)) as E. rewrite map_map in E. cbn [fetch] in E. change (fun x : R => Fin x) with Fin in E. rewrite jk_formula in E by assumption.
  destruct (se_of (List.map Some l)) as [x|]; cbn [fetch] in E; [congruence|discriminate].
Qed.
Theorem C65_se_too_few : forall l, (List.length (nonnull l) < 2)%nat -> se_of l = None.
Proof. intros l H. unfold se_of, stddev_samp, unless_fewer. apply Nat.ltb_lt in H. now rewrite H. Qed.
(** NULLs do not count. *)
Theorem C65_se_nulls : forall l, se_of l = se_of (List.map Some (nonnull l)).
Proof.
  intros l. assert (nonnull (List.map Some (nonnull l)) = nonnull l) as E. { induction (nonnull l) as [|a l' IH]; [reflexivity|]. cbn. f_equal. exact IH. }
  unfold se_of, stddev_samp. now rewrite E.
Qed.

(** ** A case: Jackknife("u", Distribution("p", Sum("x"))) *)
Definition cellu (u p : string) (x : R) : srow := SRow (fun c => if string_dec c "u" then Some u else Some p) (fun _ => Some x).
Definition datau : stable := [cellu "1" "a" 1; cellu "1" "b" 3; cellu "2" "a" 2; cellu "2" "b" 2].
Definition dist_x := ODist ["p"] sum_x [].
Definition sums u v : rframe := [(["a"], Fin u); (["b"], Fin v)].
Lemma compute_u df u v : op_compute parse0 pd_sort sum_x ["p"] df = Some (sums u v) -> (0 < u + v)%R ->
  tree_fits parse0 pd_sort dist_x [] df /\ op_compute parse0 pd_sort dist_x [] df = Some (sums (u / (u + v)) (v / (u + v))).
Proof.
  intros E H. assert (filter (pfilters parse0 []) df = df) as Ef. { clear E. induction df as [|r df IH]; [reflexivity|]. cbn [filter pfilters forallb]. now rewrite IH. }
  split.
  - cbn [tree_fits dist_x sum_x]. fold sum_x. cbn [app List.length]. split; [exact I|]. rewrite Ef, E. intros fr E'. injection E' as <-.
    intros k w [Hi|[Hi|[]]]; injection Hi as <- <-; cbn; lra.
  - change (option_map (distribution 0) (op_compute parse0 pd_sort sum_x ["p"] (filter (pfilters parse0 []) df)) = Some (sums (u / (u + v)) (v / (u + v)))). rewrite Ef, E.
    unfold sums. cbn -[Reqb Rdiv Rplus]. compare. now rewrite Rplus_0_r.
Qed.
Lemma leaf_u t : (forall r, In r t -> In r datau) -> leaf_fits parse0 [] (MLeaf (Lf (LSum (Col "x"))) []) [] [] ["p"] t.
Proof.
  intros H. apply (sum_leaf_fits parse0 []); [discriminate|intros []|intros f []| |].
  - intros r c Hr Hc. apply H in Hr. cbn in Hr, Hc. destruct Hc as [<-|[]]; repeat (destruct Hr as [<-|Hr]; [discriminate|]); destruct Hr.
  - intros r Hr. apply H in Hr. cbn in Hr. repeat (destruct Hr as [<-|Hr]; [discriminate|]); destruct Hr.
Qed.
Lemma child_u t u v : (forall r, In r t -> In r datau) -> op_compute parse0 pd_sort sum_x ["p"] (pandas_table t) = Some (sums u v) -> (0 < u + v)%R -> child_fits parse0 pd_sort dist_x [] t.
Proof.
  intros Hi E H. split; [|now apply (compute_u _ u v)]. intros b ab lc by' [Eb|[]]. injection Eb as <- <- <- <-. now apply leaf_u.
Qed.
Lemma all_rows : filter (spass parse0 []) datau = datau. Proof. reflexivity. Qed.
Lemma sums_u : op_compute parse0 pd_sort sum_x ["p"] (pandas_table datau) = Some (sums 3 5). Proof. unfold sums. cbn. frames. Qed.
Lemma out1 : left_out [] "u" [] "1" datau = [cellu "2" "a" 2; cellu "2" "b" 2]. Proof. reflexivity. Qed.
Lemma out2 : left_out [] "u" [] "2" datau = [cellu "1" "a" 1; cellu "1" "b" 3]. Proof. reflexivity. Qed.
Lemma units_u k x : unit_in [] "u" k x datau -> k = [] /\ (x = "1" \/ x = "2").
Proof. intros (r & Hr & Hk & Hx). destruct k; [|discriminate]. split; [reflexivity|]. cbn in Hr. repeat (destruct Hr as [<-|Hr]; [injection Hx; auto|]); destruct Hr. Qed.
Lemma se_two a b : (b <= a)%R -> jk_stderr [Fin a; Fin b] = Fin ((a - b) / 2).
Proof.
  intros H. change [Fin a; Fin b] with (List.map Fin [a; b]). rewrite jk_formula by (cbn; lia). f_equal. unfold spread, S_Jackknife.avg, len. cbn [List.length List.map fold_right]. replace (INR 2) with 2%R by (cbn; lra).
  unfold Rsum; cbn [fold_right fold_left]. match goal with |- sqrt ?e = _ => replace e with (((a - b) / 2) * ((a - b) / 2))%R by (unfold Rsqr; field) end. apply sqrt_square. lra.
Qed.
Example C65_case : (forall f, ~ In resample_idx (cond_labels (parse0 f))) /\
  supported_tree ([] ++ [resample_idx]) dist_x /\ ~ In (se_name (value_name dist_x)) ([] ++ extra_idx dist_x) /\ ~ In (dof_name (value_name dist_x)) ([] ++ extra_idx dist_x) /\
  (forall r, In r datau -> slab r "u" <> None) /\
  child_fits parse0 pd_sort dist_x [] datau /\
  (forall k x, unit_in [] "u" k x datau -> left_out [] "u" k x datau <> [] ->
     child_fits parse0 pd_sort dist_x [] (left_out [] "u" k x datau) /\ every_leaf_has_rows parse0 dist_x (left_out [] "u" k x datau)) /\
  (exists k x, unit_in [] "u" k x datau /\ left_out [] "u" k x datau <> []) /\
  jackknife_pandas parse0 pd_sort [] "u" dist_x [] (pandas_table datau) = Some [(["a"], Fin (3 / 8), Fin (1 / 8), 1%Z); (["b"], Fin (5 / 8), Fin (1 / 8), 1%Z)].
Proof.
  split; [intros f []|]. split; [cbn; repeat split; try discriminate; try (intros [H|[H|[]]]; discriminate); repeat constructor; cbn; intuition discriminate|].
  split; [intros [H|[]]; discriminate|]. split; [intros [H|[]]; discriminate|].
  split; [intros r Hr; cbn in Hr; repeat (destruct Hr as [<-|Hr]; [discriminate|]); destruct Hr|].
  split; [apply (child_u _ 3 5); [auto|exact sums_u|lra]|]. split; [|split].
  - intros k x Hu _. apply units_u in Hu as [-> [->| ->]]; rewrite ?out1, ?out2.
    + split; [apply (child_u _ 2 2); [intros r [<-|[<-|[]]]; cbn; tauto|unfold sums; cbn; frames|lra]|].
      intros b ab lc by' l fs [E|[]] Hl. injection E as <- <- <- <-. destruct Hl as [E|[]]. injection E as <- <-. eexists. split; [now left|reflexivity].
    + split; [apply (child_u _ 1 3); [intros r [<-|[<-|[]]]; cbn; tauto|unfold sums; cbn; frames|lra]|].
      intros b ab lc by' l fs [E|[]] Hl. injection E as <- <- <- <-. destruct Hl as [E|[]]. injection E as <- <-. eexists. split; [now left|reflexivity].
  - exists [], "1". split; [|discriminate]. exists (cellu "1" "a" 1). repeat split. now left.
  - unfold jackknife_pandas. cbn zeta. assert (filter (pfilters parse0 []) (pandas_table datau) = pandas_table datau) as -> by reflexivity.
    rewrite (proj2 (compute_u _ 3 5 sums_u ltac:(lra))). unfold op_replicates. assert (units_of "u" (pandas_table datau) = [Some "1"; Some "2"]) as Eu by reflexivity.
    unfold loo_units. rewrite Eu. cbn [List.length Nat.ltb Nat.leb flat_map].
    assert (loo_sample [] "u" (pandas_table datau) (Some "1") = pandas_table [cellu "2" "a" 2; cellu "2" "b" 2]) as -> by reflexivity.
    assert (loo_sample [] "u" (pandas_table datau) (Some "2") = pandas_table [cellu "1" "a" 1; cellu "1" "b" 3]) as -> by reflexivity.
    rewrite (proj2 (compute_u (pandas_table [cellu "2" "a" 2; cellu "2" "b" 2]) 2 2 ltac:(unfold sums; cbn; frames) ltac:(lra))).
    rewrite (proj2 (compute_u (pandas_table [cellu "1" "a" 1; cellu "1" "b" 3]) 1 3 ltac:(unfold sums; cbn; frames) ltac:(lra))).
    cbn [app List.map fst snd sums]. assert (forall u v u' v', direct_row [sums u v; sums u' v'] ["a"] = [Fin u; Fin u']) as Ea by reflexivity. assert (forall u v u' v', direct_row [sums u v; sums u' v'] ["b"] = [Fin v; Fin v']) as Eb by reflexivity.
    rewrite Ea, Eb. assert (forall a b, dof_of [Fin a; Fin b] = 1%Z) as Ed by reflexivity. rewrite !Ed. rewrite se_two by lra.
    assert (forall a b, jk_stderr [Fin a; Fin b] = jk_stderr [Fin b; Fin a]) as Es by (intros; apply jk_stderr_present; constructor). rewrite (Es (2 / (2 + 2))%R), se_two by lra. frames.
Qed.

(** ** Where they differ *)
Ltac runj := lazy -[Rplus Rminus Rmult Rdiv Rinv Ropp IZR Reqb Rltb se_of jk_stderr sql_dof dof_of].
(** A row without unit: the join leaves it out of every sample, pandas keeps it. *)
Definition cello (u : option string) (x : R) : srow := SRow (fun c => u) (fun _ => Some x).
Definition datan : stable := [cello (Some "1") 1; cello (Some "2") 2; cello None 4].
Lemma se_numbers l : fetch match match se_of l with Some r => Num r | None => Null end with Num r => Some r | _ => None end = jk_stderr (List.map fetch l).
Proof. rewrite <- se_jk. destruct (se_of l); reflexivity. Qed.
Theorem C65_null_units_refuted : 
  jk_shown [] "sum(x)" (jackknife_sql parse0 db_sort [] "u" sum_x [] datan) = [([], Fin 7, Fin (1 / 2))] /\
  exists se, jackknife_pandas parse0 pd_sort [] "u" sum_x [] (pandas_table datan) = Some [([], Fin 7, Fin se, 2%Z)] /\ (1 < se)%R.
Proof.
  split.
  - assert (jk_shown [] "sum(x)" (jackknife_sql parse0 db_sort [] "u" sum_x [] datan) =
      [([], Fin (1 + (2 + (4 + 0))), fetch match match se_of [Some (1 + 0)%R; Some (2 + 0)%R] with Some r => Num r | None => Null end with Num r => Some r | _ => None end)]) as -> by (runj; reflexivity).
    rewrite se_numbers. cbn [List.map fetch]. rewrite (jk_stderr_present _ [Fin (2 + 0); Fin (1 + 0)]) by constructor. rewrite se_two by lra. frames.
  - assert (jackknife_pandas parse0 pd_sort [] "u" sum_x [] (pandas_table datan) =
      let l := List.map Fin [(2 + (4 + 0))%R; (1 + (4 + 0))%R; (1 + (2 + (4 + 0)))%R] in Some [([], Fin (1 + (2 + (4 + 0))), jk_stderr l, dof_of l)]) as -> by (runj; reflexivity).
    cbn zeta. rewrite jk_formula by (cbn; lia). eexists. split; [frames|].
    unfold spread, S_Jackknife.avg, len. cbn [List.length List.map]. unfold Rsum. cbn [fold_right fold_left]. replace (INR 3) with 3%R by (cbn; lra).
    rewrite <- sqrt_1 at 1. apply sqrt_lt_1; lra.
Qed.
(** A single unit: pandas raises, the query gives the point estimate without standard error. *)
Theorem C65_one_unit_refuted : forall x,
  jackknife_pandas parse0 pd_sort [] "u" sum_x [] (pandas_table [cello (Some "1") x]) = None /\
  jk_shown [] "sum(x)" (jackknife_sql parse0 db_sort [] "u" sum_x [] [cello (Some "1") x]) = [([], Fin x, NaN)].
Proof.
  intros x. split; [reflexivity|]. assert (jk_shown [] "sum(x)" (jackknife_sql parse0 db_sort [] "u" sum_x [] [cello (Some "1") x]) =
    [([], Fin (x + 0), fetch match match se_of [] with Some r => Num r | None => Null end with Num r => Some r | _ => None end)]) as -> by (runj; reflexivity).
  rewrite C65_se_too_few by (cbn; lia). frames.
Qed.
