(** C79: PoissonBootstrap's SQL over the table of sums per unit (the default for Sum and Count leaves), and pandas on the raw rows. *)
From Coq Require Import Reals List Bool String Arith ZArith Permutation Sorted Lia Lra.
From Verif Require Import M_Num M_Frame L_Frame M_Ops S_Ops M_Leaf M_Slices L_Slices M_Jackknife S_Jackknife M_Bootstrap M_BootSql L_BootSql M_SqlText M_BootCache M_SqlGlobal M_SqlLeaf S_SqlLeaf L_SqlLeaf L_SqlLeaf2 M_SqlOps S_SqlOps L_SqlOps L_SqlOps7 L_SqlScope L_SqlSort M_SqlJackknife S_SqlJackknife M_SqlJackFast S_SqlJackFast L_SqlJack5 L_SqlJack6 L_SqlJack7 L_SqlLoo2 L_SqlLoo4 M_SqlBoot S_SqlBoot L_SqlBoot2 L_SqlBoot3 L_SqlBoot4 M_SqlBootPre S_SqlBootPre L_SqlBootPre1 L_SqlBootPre3 M_SqlPoisson S_SqlPoisson L_SqlPoisson1 L_SqlPoisson2 M_SqlPoissonPre S_SqlPoissonPre L_SqlPoisson4 L_SqlPoisson5 P_SqlOps P_SqlJackknife P_SqlMixedJack P_SqlBoot P_SqlJackFast P_SqlBootPre.
Import ListNotations.
Open Scope string_scope.
Open Scope list_scope.
Open Scope nat_scope.

(** Weights come from the hash, unless there are no columns of operations: then from RAND(). *)
Definition hashes (m : otree) : bool := match extra_split m with [] => false | _ => true end.

Lemma pandas_weights parse psort ws ws' where_ unit n m split_by df : (forall i, (1 <= i <= n)%nat -> ws i = ws' i) ->
  poisson_pandas parse psort ws where_ unit n m split_by df = poisson_pandas parse psort ws' where_ unit n m split_by df.
Proof.
  intros H. unfold poisson_pandas. assert (forall d, List.map (fun i => poisson_psample split_by unit d (ws i)) (seq 1 n) = List.map (fun i => poisson_psample split_by unit d (ws' i)) (seq 1 n)) as E.
  { intros d. apply map_ext_in. intros i Hi. apply in_seq in Hi. rewrite H by lia. reflexivity. }
  cbv zeta. now rewrite E.
Qed.

Section Keys.
  Variables (parse : string -> cond) (pre : leaf -> list string -> string) (u : string) (m : otree) (s : list string) (t : stable).
  Notation U := ((s ++ extra_split m) ++ [u]). Notation su := (s ++ [u]).
  Notation D := (preagg parse pre (tree_leaves [] m) U t).
  Hypothesis Hne : t <> [].
  Hypothesis Hlab : forall r c, In r t -> In c U -> slab r c <> None.
  Lemma data_unit g : In g D -> exists c, spart su g = Some c /\ In c (group_keys su (pandas_table t)).
  Proof. intros Hg. destruct (D_unit parse pre s (extra_split m) u t (tree_leaves [] m) Hne Hlab g Hg) as (c & H1 & H2 & _). eauto. Qed.
  Lemma data_keys : extra_split m = [] -> NoDup (List.map (spart su) D).
  Proof.
    intros E. destruct (D_fine parse pre s (extra_split m) u t (tree_leaves [] m) Hne) as (Hn & _). rewrite E in Hn at 1. rewrite app_nil_r in Hn.
    pose proof data_unit as Hd. clear - Hn Hd. revert Hn Hd. generalize D. intros T. induction T as [|g T IH]; intros Hn Hd; [constructor|]. cbn [List.map] in *. inversion Hn as [|? ? H1 H2]; subst. constructor.
    - intros Hi. apply in_map_iff in Hi as (g' & E & Hg'). destruct (Hd g (or_introl eq_refl)) as (c & Ec & _). rewrite Ec in E. apply H1. apply spart_srow in E. apply spart_srow in Ec. rewrite Ec, <- E. now apply in_map.
    - apply IH; [exact H2|]. intros x Hx. apply Hd. now right.
  Qed.
  Lemma query_sample rand fp i : poisson_weighted s (boot_unit u m) rand fp i D = weigh_by s u (query_weight s u (hashes m) rand fp i D) D.
  Proof.
    pose proof data_unit as Hd. pose proof data_keys as Hk. revert Hd Hk. generalize D. intros T Hd Hk. unfold boot_unit, hashes. destruct (extra_split m); [|reflexivity]. cbn [poisson_weighted]. specialize (Hk eq_refl).
    apply (weigh_rows s u (query_weight s u false rand fp i T) (fun j => poisson_weight (rand i j)) T 0). intros j g Hj. destruct (Hd g) as (c & Ec & _); [eapply nth_error_In; eauto|].
    exists c. split; [exact Ec|]. unfold query_weight. now rewrite (position_nth (spart su) T j g c Hk Hj Ec).
  Qed.
End Keys.

(** [data]: the table of sums.  [weights]: those that the query gives to the units.  If the child agrees (C62) on the raw rows, and on every
    slice of the raw rows of the units repeated by the weights, which are not empty, then the query shows the index, point estimates, standard errors and
    bounds that pandas has with these weights. *)
Theorem C79_query_as_pandas : forall parse srt psort rand fp pre where_ unit n m split_by t0,
  let t := filter (spass parse where_) t0 in
  let data := unit_sums parse pre where_ unit m split_by t0 in
  let index := split_by ++ extra_idx m in
  let weights i := query_weights split_by unit (hashes m) rand fp i data t in
  let raw i := raw_sample split_by unit (weights i) t in
  db_sorts srt -> pandas_sorts psort ->
  (forall f, ~ In resample_idx (cond_labels (parse f))) ->
  supported_tree (split_by ++ [resample_idx]) m -> ~ In (boot_se_name (value_name m)) index ->
  (forall f r, In f where_ -> In r t0 -> same_verdict (parse f) r) ->
  (forall r, In r t -> slab r unit <> None) ->
  (1 <= n)%nat -> t <> [] ->
  sums_only m -> own_columns pre m -> named_by_kind pre m ->
  child_fits parse psort m split_by t ->
  (forall i, (1 <= i <= n)%nat -> raw i <> []) ->
  (forall i k, (1 <= i <= n)%nat -> rows_in split_by k (raw i) <> [] ->
     child_fits parse psort m [] (rows_in split_by k (raw i)) /\ every_leaf_has_rows parse m (rows_in split_by k (raw i))) ->
  (forall i, weights_up_to_18 (weight_count split_by (Some unit) (pandas_table t)) (weights i)) /\
  exists result, poisson_pandas parse psort weights where_ (Some unit) n m split_by (pandas_table t0) = Some result /\
    jk_same_rows (boot_shown index (value_name m) (poisson_sql_preagg parse srt rand fp pre where_ unit n m split_by t0)) result /\
    (~ In (dof_name (value_name m)) index -> forall ppf confidence,
       jk_same_bounds ppf confidence (boot_bounds ppf confidence index (value_name m) (poisson_sql_preagg parse srt rand fp pre where_ unit n m split_by t0)) result).
Proof.
  intros parse srt psort rand fp pre where_ u n m s t0 t D index weights raw H1 H2 H3 H4 H5 H6 H7 H8 H9 H10 H11 H12 H13 H14 H15. split.
  - intros i. split; [apply map_length|]. apply Forall_forall. intros w Hw. apply in_map_iff in Hw as (c & <- & _). apply weight_le.
  - refine (same_poisson_pre parse srt psort rand fp pre where_ u n m s t0 H1 H2 H3 H4 H5 H6 H7 H8 H9 H10 H11 H12 H13 (fun i => query_weight s u (hashes m) rand fp i D) _ H14 H15).
    intros i _. apply query_sample; [exact H9|]. exact (all_labels parse psort where_ u m s t0 H7 H13).
Qed.
Print Assumptions C79_query_as_pandas.

(** For all weights up to 18 that pandas draws there are random numbers and a hash function with which the query shows its result. *)
Theorem C79_pandas_as_query : forall parse srt psort (weights : nat -> list nat) pre where_ unit n m split_by t0,
  let t := filter (spass parse where_) t0 in
  let units := group_keys (split_by ++ [unit]) (pandas_table t) in
  let index := split_by ++ extra_idx m in
  let raw i := raw_sample split_by unit (weights i) t in
  db_sorts srt -> pandas_sorts psort ->
  (forall f, ~ In resample_idx (cond_labels (parse f))) ->
  supported_tree (split_by ++ [resample_idx]) m -> ~ In (boot_se_name (value_name m)) index ->
  (forall f r, In f where_ -> In r t0 -> same_verdict (parse f) r) ->
  (forall r, In r t -> slab r unit <> None) ->
  (1 <= n)%nat -> t <> [] ->
  sums_only m -> own_columns pre m -> named_by_kind pre m ->
  (hashes m = true -> texts_differ n units) ->
  child_fits parse psort m split_by t ->
  (forall i, (1 <= i <= n)%nat -> weights_up_to_18 (List.length units) (weights i) /\ raw i <> []) ->
  (forall i k, (1 <= i <= n)%nat -> rows_in split_by k (raw i) <> [] ->
     child_fits parse psort m [] (rows_in split_by k (raw i)) /\ every_leaf_has_rows parse m (rows_in split_by k (raw i))) ->
  exists rand fp, (forall i j, 0 < rand i j <= 1)%R /\ (forall x, 0 < fp x <= 1)%R /\
  exists result, poisson_pandas parse psort weights where_ (Some unit) n m split_by (pandas_table t0) = Some result /\
    jk_same_rows (boot_shown index (value_name m) (poisson_sql_preagg parse srt rand fp pre where_ unit n m split_by t0)) result /\
    (~ In (dof_name (value_name m)) index -> forall ppf confidence,
       jk_same_bounds ppf confidence (boot_bounds ppf confidence index (value_name m) (poisson_sql_preagg parse srt rand fp pre where_ unit n m split_by t0)) result).
Proof.
  intros parse srt psort weights pre where_ u n m s t0 t units index raw H1 H2 H3 H4 H5 H6 H7 H8 H9 H10 H11 H12 Ht H13 H14 H15.
  set (D := unit_sums parse pre where_ u m s t0). set (W := fun i c => weight_in units (weights i) c).
  pose proof (all_labels parse psort where_ u m s t0 H7 H13) as Hlab. fold t in Hlab.
  assert (forall i, (1 <= i <= n)%nat -> List.map (W i) units = weights i) as EW. { intros i Hi. destruct (H14 i Hi) as [[HL _] _]. apply weight_in_map; [apply group_keys_NoDup|exact HL]. }
  assert (forall i c, (1 <= i <= n)%nat -> (W i c <= 18)%nat) as HW18. { intros i c Hi. destruct (H14 i Hi) as [[_ HF] _]. now apply weight_in_le. }
  set (rand := fun i j => match nth_error D j with Some g => match spart (s ++ [u]) g with Some c => number_for (W i c) | None => 1%R end | None => 1%R end).
  exists rand, (fp_for s u t n weights).
  split; [intros i j; unfold rand; destruct (nth_error D j) as [g|]; [destruct (spart (s ++ [u]) g); [apply number_bounds|]|]; lra|]. split; [apply fp_for_bounds|].
  assert (forall i, (1 <= i <= n)%nat -> poisson_weighted s (boot_unit u m) rand (fp_for s u t n weights) i D = weigh_by s u (W i) D) as HS.
  { intros i Hi. pose proof (data_unit parse pre u m s t H9 Hlab) as Hd. fold D in Hd. change (preagg parse pre (tree_leaves [] m) ((s ++ extra_split m) ++ [u]) t) with D in Hd. unfold boot_unit, hashes in *. destruct (extra_split m) eqn:E.
    - cbn [poisson_weighted]. apply (weigh_rows s u (W i) (fun j => poisson_weight (rand i j)) D 0). intros j g Hj. destruct (Hd g) as (c & Ec & _); [eapply nth_error_In; eauto|]. exists c. split; [exact Ec|].
      cbn [plus]. unfold rand. rewrite Hj, Ec. apply number_weight. now apply HW18.
    - cbn [poisson_weighted]. change (weigh_by s u (fun c => poisson_weight (hashed_uniform (fp_for s u t n weights) c i)) D = weigh_by s u (W i) D). apply weigh_by_ext. intros g c Hg Ec. destruct (Hd g Hg) as (c' & Ec' & Hc). assert (c' = c) as -> by congruence.
      change (hashed_uniform (fp_for s u t n weights) c i) with (fp_for s u t n weights (hashed_text c i)). rewrite (fp_for_text s u t n weights (Ht eq_refl) c i Hc Hi). apply number_weight. now apply HW18. }
  destruct (same_poisson_pre parse srt psort rand (fp_for s u t n weights) pre where_ u n m s t0 H1 H2 H3 H4 H5 H6 H7 H8 H9 H10 H11 H12 H13 W HS) as (F & EF & HF).
  - intros i Hi. fold t. fold units. rewrite (EW i Hi). now apply H14.
  - intros i k Hi. fold t. fold units. rewrite (EW i Hi). now apply H15.
  - exists F. split; [|exact HF]. rewrite <- EF. apply pandas_weights. intros i Hi. symmetry. now apply EW.
Qed.
Print Assumptions C79_pandas_as_query.

(** The weights are those of the query without preaggregation, so that with the same hash function both queries show the same. *)
Theorem C79_same_as_unpreaggregated : forall parse srt psort rand rand' fp pre where_ unit n m split_by t0,
  let t := filter (spass parse where_) t0 in
  let index := split_by ++ extra_idx m in
  let sample i := poisson_sample split_by (Some unit) rand' fp i t in
  db_sorts srt -> pandas_sorts psort ->
  (forall f, ~ In resample_idx (cond_labels (parse f))) ->
  supported_tree (split_by ++ [resample_idx]) m -> ~ In (boot_se_name (value_name m)) index ->
  (forall f r, In f where_ -> In r t0 -> same_verdict (parse f) r) ->
  (forall r, In r t -> slab r unit <> None) ->
  (1 <= n)%nat ->
  sums_only m -> own_columns pre m -> named_by_kind pre m -> extra_split m <> [] ->
  child_fits parse psort m split_by t ->
  (forall i, (1 <= i <= n)%nat -> sample i <> []) ->
  (forall i k T, (1 <= i <= n)%nat -> Permutation T (sample i) -> rows_in split_by k T <> [] ->
     child_fits parse psort m [] (rows_in split_by k T) /\ every_leaf_has_rows parse m (rows_in split_by k T)) ->
  exists result,
    jk_same_rows (boot_shown index (value_name m) (poisson_sql_preagg parse srt rand fp pre where_ unit n m split_by t0)) result /\
    jk_same_rows (boot_shown index (value_name m) (poisson_sql parse srt rand' fp where_ (Some unit) n m split_by t0)) result.
Proof.
  intros parse srt psort rand rand' fp pre where_ u n m s t0 t index sample H1 H2 H3 H4 H5 H6 H7 H8 H9 H10 H11 H12 H13 H14 H15.
  pose proof (all_labels parse psort where_ u m s t0 H7 H13) as Hlab. fold t in Hlab.
  assert (t <> []) as Hne. { intros E. apply (H14 1); [lia|]. unfold sample. now rewrite E. }
  set (W := fun i c => poisson_weight (hashed_uniform fp c i)). set (units := group_keys (s ++ [u]) (pandas_table t)).
  assert (forall r c, In r t -> In c s -> slab r c <> None) as Hs. { intros r c Hr Hc. apply (Hlab r c Hr). apply in_or_app. left. apply in_or_app. now left. }
  assert (forall i, Permutation (raw_sample s u (List.map (W i) units) t) (sample i)) as HP.
  { intros i. unfold raw_sample. fold units. rewrite repeat_by_fun. unfold rows_of. rewrite rows_repeat. unfold sample. cbn [poisson_sample].
    assert (forall r, In r t -> exists k, spart (s ++ [u]) r = Some k /\ In k units) as Hk by (exact (unit_part s t Hs u H7)).
    symmetry. rewrite (P_RowOrder.flat_map_Perm _ _ _ _ (fun r => eq_refl) (partition_by (spart (s ++ [u])) units t (group_keys_NoDup _ _) Hk)).
    clear. induction units as [|k ks IH]; [reflexivity|]. cbn [flat_map]. rewrite flat_map_app. apply Permutation_app; [|exact IH]. rewrite <- flat_map_repeat.
    assert (M_SqlLeaf.group (s ++ [u]) (List.map Some k) t = filter (in_slice (spart (s ++ [u])) k) t) as ->.
    { apply filter_ext. intros r. destruct (in_slice (spart (s ++ [u])) k r) eqn:E.
      - apply ins_iff, spart_srow in E. destruct (skey_dec _ _); congruence.
      - destruct (skey_dec _ _) as [E'|]; [|reflexivity]. apply spart_srow, (ins_iff (spart (s ++ [u]))) in E'. congruence. }
    rewrite (L_SqlPoisson2.flat_map_ext_in _ (fun r => repeat r (W i k))); [reflexivity|]. intros r Hr. apply filter_In in Hr as [_ Hr]. now rewrite (proj1 (ins_iff (spart (s ++ [u])) k r) Hr). }
  assert (forall i, raw_sample s u (List.map (W i) units) t <> [] <-> sample i <> []) as Hn.
  { intros i. split; intros Hx E; apply Hx; pose proof (HP i) as Q; rewrite E in Q; [now apply Permutation_sym, Permutation_nil in Q|now apply Permutation_nil in Q]. }
  destruct (same_poisson_pre parse srt psort rand fp pre where_ u n m s t0 H1 H2 H3 H4 H5 H6 H7 H8 Hne H9 H10 H11 H13 W) as (F & EF & HF & _).
  - intros i _. unfold boot_unit. destruct (extra_split m); [congruence|reflexivity].
  - intros i Hi. fold t. fold units. apply Hn. now apply H14.
  - intros i k Hi. fold t. fold units. apply (H15 i k _ Hi (HP i)).
  - fold t in EF. fold units in EF. destruct (same_poisson parse srt psort rand' fp (fun i => List.map (W i) units) where_ (Some u) n m s t0 H1 H2 H3 H4 H5 H6) as (F' & EF' & HF' & _); auto.
    + lia.
    + intros i k Hi. apply (H15 i k _ Hi). reflexivity.
    + intros i Hi. fold t. cbn [poisson_psample]. rewrite <- L_SqlPoisson5.raw_rows. apply (Permutation_map pandas_row). symmetry. apply HP.
    + exists F. split; [exact HF|]. rewrite EF' in EF. injection EF as <-. exact HF'.
Qed.
Print Assumptions C79_same_as_unpreaggregated.

(** ** Cases *)
Definition sum_names (l : leaf) (fs : list string) : string := "sum_x".
(** PoissonBootstrap("u", Distribution("p", Sum("x"))): weights from the hash; every sample of units fits (the other hypotheses are in C65_case) *)
Example C79_units_case : hashes dist_x = true /\ sums_only dist_x /\ own_columns sum_names dist_x /\ named_by_kind sum_names dist_x /\ child_fits parse0 pd_sort dist_x [] datau /\
  (forall k ws, rows_in [] k (raw_sample [] "u" ws datau) <> [] ->
     child_fits parse0 pd_sort dist_x [] (rows_in [] k (raw_sample [] "u" ws datau)) /\ every_leaf_has_rows parse0 dist_x (rows_in [] k (raw_sample [] "u" ws datau))) /\
  (forall w w' , 1 <= w + w' -> raw_sample [] "u" [w; w'] datau <> []) /\
  texts_differ 3 (group_keys ([] ++ ["u"]) (pandas_table datau)).
Proof.
  split; [reflexivity|]. split; [apply C65_fast_case|]. split; [intros l fs l' fs' [E|[]] [E'|[]] _; congruence|]. split; [intros l fs _; exists "x"; now left|]. split; [apply C65_case|]. split; [|split].
  - intros k ws Hk. apply C72_units_case. exact Hk.
  - intros w w' H E. assert (forall c, (c = "1" \/ c = "2") -> In [c] (repeat_by (group_keys ([] ++ ["u"]) (pandas_table datau)) [w; w']) -> False) as Hc.
    { intros c Hc Hi. assert (exists r, In r (rows_of [] "u" (repeat_by (group_keys ([] ++ ["u"]) (pandas_table datau)) [w; w']) datau)) as [r Hr].
      { exists (cellu c "a" (if string_dec c "1" then 1 else 2)). apply in_flat_map. exists [c]. split; [exact Hi|]. destruct Hc as [->| ->]; now left. }
      unfold raw_sample in E. rewrite E in Hr. destruct Hr. }
    assert (group_keys ([] ++ ["u"]) (pandas_table datau) = [["1"]; ["2"]]) as EK by reflexivity. rewrite EK in Hc. cbn [repeat_by] in Hc.
    destruct w as [|w]; [destruct w' as [|w']; [lia|]|].
    + apply (Hc "2"); [now right|]. cbn. now left.
    + apply (Hc "1"); [now left|]. cbn. now left.
  - assert (group_keys ([] ++ ["u"]) (pandas_table datau) = [["1"]; ["2"]]) as -> by reflexivity.
    intros k k' i i' Hk Hk' Hi Hi'. assert (i = 1 \/ i = 2 \/ i = 3) as Di by lia. assert (i' = 1 \/ i' = 2 \/ i' = 3) as Di' by lia. clear Hi Hi'. cbn [In] in Hk, Hk'.
    repeat match goal with H : _ \/ _ |- _ => destruct H as [H|H] end; try contradiction; subst; intros E; vm_compute in E; first [discriminate E|split; reflexivity].
Qed.
(** PoissonBootstrap("u", Sum("x")), split by "p": weights from RAND() *)
Example C79_rows_case : hashes sum_x = false /\ sums_only sum_x /\ own_columns sum_names sum_x /\ named_by_kind sum_names sum_x /\
  (forall k ws, rows_in ["p"] k (raw_sample ["p"] "u" ws datau) <> [] ->
     child_fits parse0 pd_sort sum_x [] (rows_in ["p"] k (raw_sample ["p"] "u" ws datau)) /\ every_leaf_has_rows parse0 sum_x (rows_in ["p"] k (raw_sample ["p"] "u" ws datau))).
Proof.
  split; [reflexivity|]. split; [intros l fs [E|[]]; injection E as <- <-; eexists; now left|]. split; [intros l fs l' fs' [E|[]] [E'|[]] _; congruence|]. split; [intros l fs _; exists "x"; now left|].
  intros k ws. apply C72_rows_case.
Qed.
(** The sums of the two units are 4 and 4; with weights 2 and 0 the second row is dropped and the first doubled. *)
Example C79_numbers : forall rand, let data := unit_sums parse0 sum_names [] "u" sum_x [] datau in
  let fp x := if string_dec x (hashed_text ["1"] 1) then number_for 2 else number_for 0 in
  List.map (fun r => (slab r "u", snum r "sum_x")) data = [(Some "1", Some (1 + (3 + 0))%R); (Some "2", Some (2 + (2 + 0))%R)] /\
  List.map (fun r => (slab r "u", snum r "sum_x")) (poisson_weighted [] (Some "u") rand fp 1 data) = [(Some "1", Some ((1 + (3 + 0)) * (1 + 1))%R)].
Proof.
  intros rand data fp. assert (List.map (fun r => (slab r "u", snum r "sum_x")) data = [(Some "1", Some (1 + (3 + 0))%R); (Some "2", Some (2 + (2 + 0))%R)]) as E by reflexivity.
  split; [exact E|]. destruct data as [|a [|b [|? ?]]]; try discriminate. injection E as Ea Ea' Eb Eb'.
  unfold poisson_weighted. cbn [flat_map app]. unfold spart. cbn [row_key lab pandas_row]. rewrite Ea, Eb.
  assert (hashed_uniform fp ["1"] 1 = number_for 2) as -> by reflexivity. assert (hashed_uniform fp ["2"] 1 = number_for 0) as -> by reflexivity.
  rewrite !number_weight by lia. cbn [weigh app List.map times slab snum]. rewrite Ea. change (weighted "sum_x") with true. cbn iota. rewrite Ea'. cbn. reflexivity.
Qed.
