(** C68: a Jackknife computed by compute_on_sql(mode='mixed', batch_size=b) gives exactly what compute_on gives, for every b. *)
From Coq Require Import Reals List Bool String Arith ZArith Permutation Lia Lra.
From Verif Require Import M_Num M_Frame L_Frame M_Ops S_Ops M_Leaf M_Jackknife S_Jackknife L_Jackknife3 M_SqlGlobal M_SqlLeaf S_SqlLeaf L_SqlLeaf L_SqlLeaf2 M_SqlOps S_SqlOps L_SqlSort M_SqlJackknife S_SqlJackknife M_SqlMixed S_SqlMixed L_SqlMixed M_SqlMixedJack L_SqlMixedJack1 L_SqlMixedJack3 P_SqlOps P_SqlJackknife P_SqlMixed.
Import ListNotations.
Open Scope string_scope.
Open Scope list_scope.

(** Jackknife(unit, m, where=where_), any operation or arithmetic of C62 as [m], split by any columns, any batch size, any order in
    which the database returns rows: on data where the leaf metrics of the child agree (C16) on the table and on every sample (a slice
    [k] without a unit [x] of the table) that has rows, and every row has a unit.  Index, values, standard errors and degrees
    of freedom are those of pandas, in the same order. *)
Theorem C68_same : forall parse dbo dbd psort where_ m split_by unit batch_size t0,
  let t := filter (spass parse where_) t0 in
  let sample k x := left_out split_by unit k x t in
  some_order dbo -> (forall l, Permutation (dbd l) l) -> pandas_sorts psort ->
  (forall f, ~ In resample_idx (cond_labels (parse f))) ->
  supported_tree (split_by ++ [resample_idx]) m ->
  (forall f r, In f where_ -> In r t0 -> same_verdict (parse f) r) ->
  (forall r, In r t -> slab r unit <> None) ->
  child_fits parse psort m split_by t -> mixed_fits parse m [] split_by t ->
  (forall k x, (exists r, In r t /\ slab r unit = Some x) -> sample k x <> [] ->
     child_fits parse psort m [] (sample k x) /\ every_leaf_has_rows parse m (sample k x) /\ mixed_fits parse m [] [] (sample k x)) ->
  (exists k x, unit_in split_by unit k x t /\ sample k x <> []) ->
  jackknife_mixed parse dbo dbd psort m split_by unit where_ batch_size t0 = jackknife_pandas parse psort where_ unit m split_by (pandas_table t0).
Proof. intros parse dbo dbd psort wh m s u b t0 t sample H1 H2 H3 H4 H5 H6 H7 H8 H9 H10 H11. now apply mixed_same. Qed.
Print Assumptions C68_same.

(** Without split_by and with the default batch size: any tree of operations whatever (no restriction on names, nesting and filters),
    if the table has two units and the child does not raise on any sample. *)
Theorem C68_no_split : forall parse dbo dbd psort where_ m unit batch_size t0,
  let t := filter (spass parse where_) t0 in
  let sample x := left_out [] unit [] x t in
  some_order dbo -> (forall l, Permutation (dbd l) l) ->
  (forall f r, In f where_ -> In r t0 -> same_verdict (parse f) r) ->
  (forall r, In r t -> slab r unit <> None) ->
  mixed_fits parse m [] [] t ->
  (forall x, (exists r, In r t /\ slab r unit = Some x) -> mixed_fits parse m [] [] (sample x) /\ op_compute parse psort m [] (pandas_table (sample x)) <> None) ->
  (exists r1 r2, In r1 t /\ In r2 t /\ slab r1 unit <> slab r2 unit) ->
  (batch_size <= 1)%nat ->
  jackknife_mixed parse dbo dbd psort m [] unit where_ batch_size t0 = jackknife_pandas parse psort where_ unit m [] (pandas_table t0).
Proof. intros parse dbo dbd psort wh m u b t0 t sample H1 H2 H3 H4 H5 H6 H7 H8. now apply plain_same. Qed.
Print Assumptions C68_no_split.

(** The batch size and the database do not matter. *)
Theorem C68_any_batch : forall parse dbo dbo' dbd dbd' psort where_ m split_by unit batch_size batch_size' t0,
  let t := filter (spass parse where_) t0 in
  let sample k x := left_out split_by unit k x t in
  some_order dbo -> some_order dbo' -> (forall l, Permutation (dbd l) l) -> (forall l, Permutation (dbd' l) l) -> pandas_sorts psort ->
  (forall f, ~ In resample_idx (cond_labels (parse f))) ->
  supported_tree (split_by ++ [resample_idx]) m ->
  (forall f r, In f where_ -> In r t0 -> same_verdict (parse f) r) ->
  (forall r, In r t -> slab r unit <> None) ->
  child_fits parse psort m split_by t -> mixed_fits parse m [] split_by t ->
  (forall k x, (exists r, In r t /\ slab r unit = Some x) -> sample k x <> [] ->
     child_fits parse psort m [] (sample k x) /\ every_leaf_has_rows parse m (sample k x) /\ mixed_fits parse m [] [] (sample k x)) ->
  (exists k x, unit_in split_by unit k x t /\ sample k x <> []) ->
  jackknife_mixed parse dbo dbd psort m split_by unit where_ batch_size t0 = jackknife_mixed parse dbo' dbd' psort m split_by unit where_ batch_size' t0.
Proof. intros. cbv zeta in *. now rewrite !C68_same. Qed.

(** The default mode (C65) and mixed mode give the same rows. *)
Theorem C68_both_modes : forall parse dbo dbd srt psort where_ m split_by unit batch_size t0,
  let t := filter (spass parse where_) t0 in
  let sample k x := left_out split_by unit k x t in
  let index := split_by ++ extra_idx m in
  some_order dbo -> (forall l, Permutation (dbd l) l) -> db_sorts srt -> pandas_sorts psort ->
  (forall f, ~ In resample_idx (cond_labels (parse f))) ->
  supported_tree (split_by ++ [resample_idx]) m -> ~ In (se_name (value_name m)) index ->
  (forall f r, In f where_ -> In r t0 -> same_verdict (parse f) r) ->
  (forall r, In r t -> slab r unit <> None) ->
  child_fits parse psort m split_by t -> mixed_fits parse m [] split_by t ->
  (forall k x, (exists r, In r t /\ slab r unit = Some x) -> sample k x <> [] ->
     child_fits parse psort m [] (sample k x) /\ every_leaf_has_rows parse m (sample k x) /\ mixed_fits parse m [] [] (sample k x)) ->
  (exists k x, unit_in split_by unit k x t /\ sample k x <> []) ->
  exists result, jackknife_mixed parse dbo dbd psort m split_by unit where_ batch_size t0 = Some result /\
    jk_same_rows (jk_shown index (value_name m) (jackknife_sql parse srt where_ unit m split_by t0)) result.
Proof.
  intros parse dbo dbd srt psort wh m s u b t0 t sample index H1 H2 Hs H3 H4 H5 Hn H6 H7 H8 H9 H10 H11.
  destruct (C65_same_rows parse srt psort wh u m s t0) as (F & E & HF); auto.
  - intros k x (r & Hr & _ & Hx) Hne. destruct (H10 k x) as (A & B & _); eauto.
  - exists F. split; [|exact HF]. rewrite <- E. now apply C68_same.
Qed.

(** ** A case: Jackknife("u", Sum("x")) split by p; every batch size, and a database that reverses everything *)
Lemma sum_mixed_fits_rows parse c above w by_ t : ~ In "" (above ++ w) -> (forall f, In f (above ++ w) -> positive (parse f)) ->
  (forall r c, In r t -> In c by_ -> slab r c <> None) -> (forall r, In r t -> snum r c <> None) -> (exists r, In r t /\ spass parse (above ++ w) r = true) ->
  mixed_leaf_fits parse t (Lf (LSum (Col c)), above, w, by_).
Proof.
  intros He Hp Hl Hx Hr. repeat split; auto.
  - intros f r Hf _. apply positive_same. auto.
  - destruct H as [[-> ->]|H].
    + destruct Hr as (r & Hr & Hs). exists r. split; [|now apply Hx]. unfold used_rows. apply filter_In. split; [exact Hr|]. rewrite Hs. reflexivity.
    + apply used_nonempty in H as (r & Hr' & Hs & Hk). exists r. split; [|now apply Hx]. unfold used_rows. apply filter_In. split; [exact Hr'|]. rewrite Hs, Hk. cbn. now destruct (skey_dec _ _).
Qed.
Lemma datau_cells r : In r datau -> (forall c, slab r c <> None) /\ (forall c, snum r c <> None).
Proof. intros Hr. cbn in Hr. repeat (destruct Hr as [<-|Hr]; [split; intros c; cbn; [destruct (string_dec c "u"); discriminate|discriminate]|]). destruct Hr. Qed.
Lemma left_sub k x r : In r (left_out ["p"] "u" k x datau) -> In r datau.
Proof. unfold left_out. intros H. now apply filter_In in H. Qed.
Lemma leaf_any t by_ : (forall r, In r t -> In r datau) -> t <> [] -> leaf_fits parse0 [] (MLeaf (Lf (LSum (Col "x"))) []) [] [] by_ t.
Proof.
  intros Hi Hne. split; [|split].
  - intros l gs [E|[]]. injection E as <- <-. split; [exact I|]. split; [intros []|]. intros f r [].
  - intros r c Hr _ _. now apply datau_cells, Hi.
  - intros k Hk. assert (exists r, In r t /\ srow_key by_ r = List.map Some k) as (r & Hr & Ek).
    { destruct Hk as [[-> ->]|(r & Hr & _ & Ek)]; [|eauto]. destruct t as [|r t]; [contradiction|]. exists r. split; [now left|reflexivity]. }
    split.
    + intros l gs [E|[]]. injection E as <- <-. split; [|exact I]. right. intros E.
      assert (In r (used_rows parse0 by_ k [] t)) as H; [|rewrite E in H; destruct H]. apply filter_In. split; [exact Hr|]. rewrite Ek. cbn. now destruct (skey_dec _ _).
    + exists r. split.
      * apply filter_In. split; [apply filter_In; auto|]. rewrite Ek. now destruct (skey_dec _ _).
      * cbn. now apply datau_cells, Hi.
Qed.
Example C68_case : forall batch_size,
  (forall f, ~ In resample_idx (cond_labels (parse0 f))) /\ supported_tree (["p"] ++ [resample_idx]) sum_x /\
  child_fits parse0 pd_sort sum_x ["p"] datau /\ mixed_fits parse0 sum_x [] ["p"] datau /\
  (forall k x, (exists r, In r datau /\ slab r "u" = Some x) -> left_out ["p"] "u" k x datau <> [] ->
     child_fits parse0 pd_sort sum_x [] (left_out ["p"] "u" k x datau) /\ every_leaf_has_rows parse0 sum_x (left_out ["p"] "u" k x datau) /\ mixed_fits parse0 sum_x [] [] (left_out ["p"] "u" k x datau)) /\
  (exists k x, unit_in ["p"] "u" k x datau /\ left_out ["p"] "u" k x datau <> []) /\
  jackknife_mixed parse0 db_rev (@rev _) pd_sort sum_x ["p"] "u" [] batch_size datau = Some [(["a"], Fin 3, Fin (1 / 2), 1%Z); (["b"], Fin 5, Fin (1 / 2), 1%Z)].
Proof.
  intros b.
  assert (forall f, ~ In resample_idx (cond_labels (parse0 f))) as H1 by (intros f []).
  assert (supported_tree (["p"] ++ [resample_idx]) sum_x) as H2 by (cbn; repeat split; try discriminate; try (intros [H|[H|[]]]; discriminate); repeat constructor; cbn; intuition discriminate).
  assert (child_fits parse0 pd_sort sum_x ["p"] datau) as H3. { split; [|exact I]. intros m ab lc by' [E|[]]. injection E as <- <- <- <-. apply leaf_any; [auto|discriminate]. }
  assert (mixed_fits parse0 sum_x [] ["p"] datau) as H4.
  { intros x [<-|[]]. apply (sum_mixed_fits parse0 "x" [] []); [discriminate|intros []|intros f []|intros r c Hr _; now apply datau_cells|intros r Hr; now apply datau_cells]. }
  assert (forall k x, (exists r, In r datau /\ slab r "u" = Some x) -> left_out ["p"] "u" k x datau <> [] ->
     child_fits parse0 pd_sort sum_x [] (left_out ["p"] "u" k x datau) /\ every_leaf_has_rows parse0 sum_x (left_out ["p"] "u" k x datau) /\ mixed_fits parse0 sum_x [] [] (left_out ["p"] "u" k x datau)) as H5.
  { intros k x _ Hne. assert (exists r, In r (left_out ["p"] "u" k x datau)) as (r0 & Hr0). { destruct (left_out ["p"] "u" k x datau) as [|r l]; [contradiction|]. exists r. now left. }
    split; [|split].
    - split; [|exact I]. intros m ab lc by' [E|[]]. injection E as <- <- <- <-. apply leaf_any; [apply left_sub|exact Hne].
    - intros m ab lc by' l fs [E|[]] Hl. injection E as <- <- <- <-. destruct Hl as [E|[]]. injection E as <- <-. exists r0. split; [exact Hr0|reflexivity].
    - intros y [<-|[]]. apply (sum_mixed_fits_rows parse0 "x" [] []); [intros []|intros f []|intros r c _ []|intros r Hr; now apply datau_cells, (left_sub k x)|]. exists r0. split; [exact Hr0|reflexivity]. }
  assert (exists k x, unit_in ["p"] "u" k x datau /\ left_out ["p"] "u" k x datau <> []) as H6.
  { exists ["a"], "1". split; [exists (cellu "1" "a" 1); split; [now left|]; split; reflexivity|]. discriminate. }
  do 6 (split; [assumption|]).
  rewrite C68_same; auto using db_rev_order, pd_sort_sorts.
  - assert (jackknife_pandas parse0 pd_sort [] "u" sum_x ["p"] (pandas_table datau) =
      Some [(["a"], Fin (1 + (2 + 0)), jk_stderr [Fin (2 + 0); Fin (1 + 0)], dof_of [Fin (2 + 0); Fin (1 + 0)]);
            (["b"], Fin (3 + (2 + 0)), jk_stderr [Fin (2 + 0); Fin (3 + 0)], dof_of [Fin (2 + 0); Fin (3 + 0)])]) as -> by (runj; reflexivity).
    assert (forall a b, dof_of [Fin a; Fin b] = 1%Z) as Ed by reflexivity. rewrite !Ed. rewrite se_two by lra.
    assert (jk_stderr [Fin (2 + 0); Fin (3 + 0)] = jk_stderr [Fin (3 + 0); Fin (2 + 0)]) as -> by (apply jk_stderr_present; constructor). rewrite se_two by lra. frames.
  - intros l. symmetry. apply Permutation_rev.
  - intros f r [].
  - intros r Hr. now apply datau_cells.
Qed.

(** ** Where they differ *)
(** Leaving out unit 1 leaves no baseline: compute_on skips a sample on which the child raises, mixed mode raises. *)
Theorem C68_failing_sample_refuted : let m := OChange false ["p"] ["a"] false sum_x [] in
  let t := [cellu "1" "a" 1; cellu "2" "b" 2; cellu "3" "b" 4] in
  jackknife_pandas parse0 pd_sort [] "u" m [] (pandas_table t) = Some [(["b"], Fin 5, Fin 1, 1%Z)] /\
  forall batch_size, (batch_size <= 1)%nat -> jackknife_mixed parse0 db_rev (@rev _) pd_sort m [] "u" [] batch_size t = None.
Proof.
  cbv zeta. split.
  - match goal with |- ?l = _ => assert (l = Some [(["b"], Fin (2 + (4 + 0) + - (1 + 0)), jk_stderr [Fin (4 + 0 + - (1 + 0)); Fin (2 + 0 + - (1 + 0))], 1%Z)]) as -> by (runj; reflexivity) end.
    rewrite se_two by lra. frames.
  - intros [|[|b]] H; [runj; reflexivity|runj; reflexivity|lia].
Qed.
(** A single unit: pandas raises, mixed mode (batch size 1) gives the value without standard error. *)
Theorem C68_one_unit_refuted : forall x,
  jackknife_pandas parse0 pd_sort [] "u" sum_x [] (pandas_table [cello (Some "1") x]) = None /\
  jackknife_mixed parse0 db_rev (@rev _) pd_sort sum_x [] "u" [] 1 [cello (Some "1") x] = Some [([], Fin x, NaN, (-1)%Z)].
Proof.
  intros x. split; [reflexivity|].
  match goal with |- ?l = _ => assert (l = Some [([], Fin (x + 0), jk_stderr [NaN], dof_of [NaN])]) as -> by (runj; reflexivity) end.
  assert (jk_stderr [NaN] = NaN) as -> by reflexivity. assert (dof_of [NaN] = (-1)%Z) as -> by reflexivity. frames.
Qed.
(** A row without unit: with batches of two or more one of the queries is invalid, whatever the metric and the rest of the table. *)
Lemma all_some_none {A} (l : list (option A)) : In None l -> all_some l = None.
Proof. induction l as [|[a|] l IH]; intros H; [destruct H| |reflexivity]. cbn. destruct H as [H|H]; [discriminate|]. now rewrite IH. Qed.
Theorem C68_null_unit_raises : forall parse dbo dbd psort where_ m split_by unit batch_size t,
  (forall l, Permutation (dbd l) l) -> (2 <= batch_size)%nat ->
  (exists r, In r t /\ spass parse where_ r = true /\ slab r unit = None) ->
  jackknife_mixed parse dbo dbd psort m split_by unit where_ batch_size t = None.
Proof.
  intros parse dbo dbd psort wh m s u b t Hd Hb (r & Hr & Hp & Hu). unfold jackknife_mixed. cbv zeta.
  set (t' := sub_table parse wh t). set (su := dbd (buckets s u t')). set (us := first_seen (List.map snd su)).
  assert (In None us) as HN.
  { unfold us. apply first_seen_In. apply in_map_iff. exists (srow_key s r, None). split; [reflexivity|]. unfold su. eapply Permutation_in; [symmetry; apply Hd|].
    unfold buckets. apply nodup_In, in_map_iff. exists r. split; [now rewrite Hu|]. unfold t', sub_table. now apply filter_In. }
  destruct b as [|[|b]]; [lia|lia|]. rewrite all_some_none; [now destruct us|].
  rewrite <- (chunks_concat (S (S b)) us) in HN by discriminate. apply in_concat in HN as (c & Hc & HN). apply in_map_iff. exists c. split; [|exact Hc].
  unfold loo_batch. assert (existsb (fun x : option string => match x with None => true | _ => false end) c = true) as ->; [|reflexivity]. apply existsb_exists. eauto.
Qed.
Theorem C68_null_unit_refuted :
  (forall batch_size, (2 <= batch_size)%nat -> jackknife_mixed parse0 db_rev (@rev _) pd_sort sum_x [] "u" [] batch_size datan = None) /\
  exists se, jackknife_pandas parse0 pd_sort [] "u" sum_x [] (pandas_table datan) = Some [([], Fin 7, Fin se, 2%Z)].
Proof.
  split; [|destruct C65_null_units_refuted as [_ (se & E & _)]; now exists se]. intros b Hb. apply C68_null_unit_raises; [intros l; symmetry; apply Permutation_rev|exact Hb|].
  exists (cello None 4). split; [cbn; tauto|]. split; reflexivity.
Qed.
