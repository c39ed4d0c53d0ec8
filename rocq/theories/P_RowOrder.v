(** C69: the order of the rows of the data does not matter. *)
From Coq Require Import Reals List Bool String Arith Permutation Lia Lra ZArith.
From Verif Require M_Nth.
From Verif Require Import M_Num M_Frame L_Frame L_OpsA M_Ops S_Ops M_Leaf S_Leaf M_Slices M_Jackknife L_Jackknife3 M_SqlGlobal M_SqlLeaf S_SqlLeaf L_SqlLeaf M_SqlOps S_SqlOps L_SqlOps L_SqlOps2 L_Slices
  M_SqlJackknife S_SqlJackknife M_SqlMH S_SqlMH M_Quantile S_RowOrder L_RowOrder P_SqlOps.
Import ListNotations.
Open Scope string_scope.
Open Scope list_scope.

(** pandas: Distribution, CumulativeDistribution, PercentChange, AbsoluteChange, HHI, Entropy, TopK, Nxx and arithmetic on top of each
    other and of leaf metrics, any filters, any split_by, any data: the same frame, whether or not the computation raises. *)
Theorem C69_pandas : forall parse psort m split_by df df',
  order_free m -> Permutation df df' ->
  op_compute parse psort m split_by df = op_compute parse psort m split_by df'.
Proof. intros. now apply op_perm. Qed.
Print Assumptions C69_pandas.

(** SQL: the rows of the result are the same, for any two databases; only one of the two tables has to meet the conditions of C62. *)
Theorem C69_sql : forall parse srt srt' psort t t' m split_by,
  db_sorts srt -> db_sorts srt' -> pandas_sorts psort -> supported_tree split_by m ->
  leaves_fit parse m split_by t ->
  tree_fits parse psort m split_by (pandas_table t) ->
  Permutation t t' ->
  Permutation (shown (split_by ++ extra_idx m) (value_name m) (run_sql parse srt (op_to_sql m split_by) t))
              (shown (split_by ++ extra_idx m) (value_name m) (run_sql parse srt' (op_to_sql m split_by) t')).
Proof.
  intros parse srt srt' psort t t' m by_ Hs Hs' Hp Hm Hl Ht H.
  assert (order_free m) as Hf. { eapply tree_free. intros b ab lc by' Hb l fs Hi. destruct (Hl b ab lc by' Hb) as (H1 & _). now destruct (H1 l fs Hi). }
  assert (leaves_fit parse m by_ t') as Hl'. { intros b ab lc by' Hb. eapply leaf_fits_perm; [exact H|]. now apply Hl. }
  pose proof (tree_fits_perm parse psort m by_ _ _ Hf (pandas_perm _ _ H) Ht) as Ht'.
  destruct (C62_same_rows parse srt psort t m by_ Hs Hp Hm Hl Ht) as (F & E & HF).
  destruct (C62_same_rows parse srt' psort t' m by_ Hs' Hp Hm Hl' Ht') as (F' & E' & HF').
  rewrite (op_perm parse psort m by_ _ _ Hf (pandas_perm _ _ H)) in E. assert (F = F') as <- by congruence.
  unfold same_rows in *. rewrite HF. now symmetry.
Qed.
Print Assumptions C69_sql.

(** MH *)
Theorem C69_mh : forall parse psort x split_by df df',
  order_free (mh_numer x) -> order_free (mh_denom x) -> Permutation df df' ->
  mh_pandas parse psort x split_by df = mh_pandas parse psort x split_by df'.
Proof.
  intros parse psort x by_ df df' H1 H2 H. unfold mh_pandas, mh_children.
  assert (Permutation (filter (pfilters parse (mh_child_where x)) (filter (pfilters parse (mh_where x)) df)) (filter (pfilters parse (mh_child_where x)) (filter (pfilters parse (mh_where x)) df'))) as HP by (now do 2 apply where_perm).
  now rewrite (op_perm parse psort _ _ _ _ H1 HP), (op_perm parse psort _ _ _ _ H2 HP).
Qed.
Print Assumptions C69_mh.

(** Jackknife: values, standard errors and degrees of freedom, although the units are taken in the order of appearance. *)
Lemma units_from_In unit df : forall seen x, In x (units_from unit seen df) <-> (exists r, In r df /\ lab r unit = x) /\ ~ In x seen.
Proof.
  induction df as [|r df IH]; intros seen x; cbn [units_from]; [split; [intros []|intros [(r & [] & _) _]]|]. destruct (in_dec _ (lab r unit) seen) as [Hi|Hi].
  - rewrite IH. split; intros [(r0 & H1 & H2) H3]; (split; [|exact H3]); [exists r0; split; [now right|exact H2]|]. destruct H1 as [->|H1]; [congruence|eauto].
  - cbn [In]. rewrite IH. cbn [In]. split.
    + intros [<-|[(r0 & H1 & H2) H3]]; [split; [exists r; auto|exact Hi]|]. split; [exists r0; auto|tauto].
    + intros [(r0 & [->|H1] & H2) H3]; [now left|]. destruct (label_dec (lab r unit) x) as [E|E]; [now left|right]. split; [eauto|tauto].
Qed.
Lemma units_from_NoDup unit df : forall seen, NoDup (units_from unit seen df).
Proof.
  induction df as [|r df IH]; intros seen; cbn [units_from]; [constructor|]. destruct (in_dec _ (lab r unit) seen); [apply IH|]. constructor; [|apply IH]. rewrite units_from_In. cbn. tauto.
Qed.
Lemma units_perm unit df df' : Permutation df df' -> Permutation (units_of unit df) (units_of unit df').
Proof.
  intros H. apply NoDup_Permutation; try apply units_from_NoDup. intros x. unfold units_of. rewrite !units_from_In. split; intros [(r & Hr & E) _]; (split; [|auto]); exists r; (split; [|exact E]);
    [now apply (Permutation_in _ H)|now apply (Permutation_in _ (Permutation_sym H))].
Qed.
Lemma unique_perm cols df df' : Permutation df df' -> unique_slices cols df = unique_slices cols df'.
Proof. intros H. apply sort_uniq_same. now apply keys_perm. Qed.
Lemma loo_sample_perm by_ unit x df df' : Permutation df df' -> Permutation (loo_sample by_ unit df x) (loo_sample by_ unit df' x).
Proof.
  intros H. unfold loo_sample. destruct by_ as [|c by_]; [now apply filter_perm|]. cbv zeta.
  rewrite (unique_perm (c :: by_) _ _ H), (unique_perm (c :: by_) _ _ (filter_perm (is_unit unit x) _ _ H)). destruct (Nat.eqb _ _); repeat apply filter_perm; exact H.
Qed.
Lemma loo_units_perm by_ unit df df' : Permutation df df' -> Permutation (loo_units by_ unit df) (loo_units by_ unit df').
Proof.
  intros H. unfold loo_units. destruct by_; [now apply units_perm|]. change (sort_uniq (keys_of [unit] df)) with (unique_slices [unit] df). now rewrite (unique_perm [unit] _ _ H).
Qed.
Lemma flat_map_Perm {A B} (f g : A -> list B) l l' : (forall x, f x = g x) -> Permutation l l' -> Permutation (flat_map f l) (flat_map g l').
Proof.
  intros E H. induction H; cbn; [constructor|rewrite E; now apply Permutation_app_head| |now rewrite IHPermutation1, <- IHPermutation2, (flat_map_ext _ _ E)].
  rewrite <- !E, !app_assoc. rewrite (flat_map_ext _ _ E). apply Permutation_app_tail. apply Permutation_app_comm.
Qed.
Theorem C69_jackknife : forall parse psort where_ unit m split_by df df',
  order_free m -> Permutation df df' ->
  jackknife_pandas parse psort where_ unit m split_by df = jackknife_pandas parse psort where_ unit m split_by df'.
Proof.
  intros parse psort w unit m by_ df df' Hf H0. unfold jackknife_pandas. cbv zeta. pose proof (where_perm parse w _ _ H0) as H.
  rewrite (op_perm parse psort m by_ _ _ Hf H). destruct (op_compute parse psort m by_ (filter (pfilters parse w) df')) as [p|]; [|reflexivity].
  set (d := filter (pfilters parse w) df) in *. set (d' := filter (pfilters parse w) df') in *. unfold op_replicates. rewrite (Permutation_length (units_perm unit _ _ H)).
  destruct (Nat.ltb _ 2); [reflexivity|].
  set (f := fun x => match op_compute parse psort m by_ (loo_sample by_ unit d x) with Some r => [r] | None => [] end).
  set (g := fun x => match op_compute parse psort m by_ (loo_sample by_ unit d' x) with Some r => [r] | None => [] end).
  assert (Permutation (flat_map f (loo_units by_ unit d)) (flat_map g (loo_units by_ unit d'))) as HP.
  { apply flat_map_Perm; [|now apply loo_units_perm]. intros x. unfold f, g. now rewrite (op_perm parse psort m by_ _ _ Hf (loo_sample_perm by_ unit x _ _ H)). }
  destruct (flat_map f _) as [|r0 reps]; destruct (flat_map g _) as [|r0' reps'].
  - reflexivity.
  - apply Permutation_nil in HP. discriminate.
  - symmetry in HP. apply Permutation_nil in HP. discriminate.
  - f_equal. apply map_ext. intros q. assert (Permutation (direct_row (r0 :: reps) (fst q)) (direct_row (r0' :: reps') (fst q))) as HD by (now apply Permutation_map). f_equal; [f_equal|].
    + apply jk_stderr_present. now apply filter_perm.
    + unfold dof_of. now rewrite (count_perm _ _ HD).
Qed.
Print Assumptions C69_jackknife.

(** Weighted quantiles of finite or missing values, as pandas and as the query compute them. *)
Lemma add_weight_swap v w v' w' l : add_weight v w (add_weight v' w' l) = add_weight v' w' (add_weight v w l).
Proof.
  induction l as [|[a b] l IH]; cbn [add_weight].
  - destruct (Rlt_dec v v'), (Rlt_dec v' v), (Req_EM_T v v'), (Req_EM_T v' v); try lra; try reflexivity. subst. f_equal. f_equal. lra.
  - destruct (Rlt_dec v' a), (Req_EM_T v' a), (Rlt_dec v a), (Req_EM_T v a); cbn [add_weight]; subst; try lra;
      repeat match goal with |- context [Rlt_dec ?x ?y] => destruct (Rlt_dec x y); try lra | |- context [Req_EM_T ?x ?y] => destruct (Req_EM_T x y); try lra end; subst; try lra; try reflexivity;
      try (f_equal; f_equal; lra).
    now rewrite IH.
Qed.
Lemma aggregate_perm l l' : Permutation l l' -> aggregate l = aggregate l'.
Proof. intros H. unfold aggregate. induction H; cbn; [reflexivity|now rewrite IHPermutation|apply add_weight_swap|congruence]. Qed.
Lemma pandas_rows_perm l l' : Permutation l l' -> Permutation (pandas_rows l) (pandas_rows l').
Proof.
  intros H. induction H as [|[[] []] l l' _ IH|[[] []] [[] []] l|]; cbn; auto; try reflexivity; try (now constructor); now transitivity (pandas_rows l').
Qed.
Lemma sql_rows_perm l l' : Permutation l l' -> Permutation (sql_rows l) (sql_rows l').
Proof.
  intros H. induction H as [|[[] []] l l' _ IH|[[] []] [[] []] l|]; cbn; auto; try reflexivity; try (now constructor); now transitivity (sql_rows l').
Qed.
Theorem C69_quantile : forall q rows rows', Permutation rows rows' ->
  pandas_quantile q rows = pandas_quantile q rows' /\ sql_quantile q rows = sql_quantile q rows'.
Proof. intros q l l' H. unfold pandas_quantile, sql_quantile. now rewrite (aggregate_perm _ _ (pandas_rows_perm _ _ H)), (aggregate_perm _ _ (sql_rows_perm _ _ H)). Qed.
Print Assumptions C69_quantile.

(** Nth: the values it may return are the same; which of them it is when rows tie may depend on the order. *)
Theorem C69_nth : forall K V G (leb : K -> K -> bool) n asc dropna (df df' : list (M_Nth.row K V G)) v, Permutation df df' ->
  (M_Nth.computes leb n asc dropna df v <-> M_Nth.computes leb n asc dropna df' v).
Proof.
  intros K V G leb n asc d df df' v H. unfold M_Nth.computes. destruct (M_Nth.nth_init n asc) as [n' asc'].
  assert (Permutation (M_Nth.drop_missing d df) (M_Nth.drop_missing d df')) as HP by (destruct d; [now apply filter_perm|exact H]).
  split; intros (s & [H1 H2] & E); exists s; (split; [split; [|exact H2]|exact E]); [now rewrite <- HP|now rewrite HP].
Qed.

(** A leaf metric that looks at the order, like Nth with ties, is not covered: first of "x". *)
Definition first_x : otree := OLeaf (MLeaf (Lf (LOther (fun rows => match rows with r :: _ => val r "x" | [] => NaN end))) []) "nth(x)".
Theorem C69_ties_refuted : exists df df', Permutation df df' /\ forall parse psort, op_compute parse psort first_x [] df <> op_compute parse psort first_x [] df'.
Proof.
  exists (pandas_table [cell2 (Some "a") (Some 1%R); cell2 (Some "a") (Some 2%R)]), (pandas_table [cell2 (Some "a") (Some 2%R); cell2 (Some "a") (Some 1%R)]). split; [apply perm_swap|].
  intros parse psort. cbn. intros H. injection H as H. lra.
Qed.
Print Assumptions C69_ties_refuted.

(** A case: AbsoluteChange("e", "0", Distribution("p", Sum("x"), where "x > 0")) on the rows of [data] in the reverse order, in pandas
    and in SQL. *)
Example C69_case : order_free tree1 /\ Permutation data (rev data) /\ data <> rev data /\
  exists rows, rows = [(["1"; "a"], Fin (1 / 4)); (["1"; "b"], Fin (- 1 / 4))] /\
  op_compute parse0 L_SqlSort.pd_sort tree1 [] (pandas_table (rev data)) = Some rows /\
  same_rows (shown ["e"; "p"] (value_name tree1) (run_sql parse0 L_SqlSort.db_sort (op_to_sql tree1 []) (rev data))) rows.
Proof.
  assert (order_free tree1) as Hf by exact I. pose proof (Permutation_rev data) as HP. split; [exact Hf|]. split; [exact HP|]. split.
  { intros E. apply (f_equal (fun l => List.map (fun r => slab r "e") l)) in E. discriminate. }
  destruct C62_case as (rows & H1 & H2 & H3 & H4 & H5 & H6 & E). exists rows. split; [exact E|].
  pose proof (C69_pandas parse0 L_SqlSort.pd_sort tree1 [] _ _ Hf (pandas_perm _ _ HP)) as Hc. split; [now rewrite <- Hc|].
  pose proof (C69_sql parse0 _ _ _ data (rev data) tree1 [] H1 H1 H2 H3 H4 H5 HP) as HS.
  destruct (C62_same_rows parse0 _ _ data tree1 [] H1 H2 H3 H4 H5) as (F & E1 & HF). assert (F = rows) as -> by congruence.
  unfold same_rows in *. cbn [app extra_idx tree1 sum_x] in *. now rewrite <- HF.
Qed.
