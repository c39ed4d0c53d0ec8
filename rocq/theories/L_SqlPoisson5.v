(** PoissonBootstrap on the table of sums: the query and pandas on the raw rows. *)
From Coq Require Import Reals List Bool String Arith ZArith NArith Permutation Lia Lra.
From Verif Require Import M_Num M_Frame L_Frame M_Leaf M_Ops M_Slices L_Slices M_Jackknife L_Jackknife3 M_Bootstrap M_BootSql L_BootSql L_Bootstrap3 M_SqlText M_BootCache M_SqlGlobal M_SqlLeaf S_SqlLeaf L_SqlLeaf L_SqlLeaf2 M_SqlOps S_SqlOps L_SqlOps7 M_SqlJackknife S_SqlJackknife M_SqlJackFast S_SqlJackFast L_SqlSummary L_SqlSummary2 S_Ops L_SqlOps L_SqlScope L_SqlSort L_SqlJack6 L_SqlJack7 L_SqlBoot4 L_SqlBootPre3 L_SqlLoo1 L_SqlLoo2 L_SqlLoo3 L_SqlLoo4 L_SqlJack5 M_SqlBoot S_SqlBoot L_SqlBoot2 L_SqlBoot3 M_SqlBootPre S_SqlBootPre L_SqlBootPre1 L_SqlBootPre2 P_RowOrder M_SqlPoisson S_SqlPoisson L_SqlPoisson1 L_SqlPoisson2 M_SqlPoissonPre S_SqlPoissonPre L_SqlPoisson3 L_SqlPoisson4.
Import ListNotations.
Open Scope string_scope.
Open Scope list_scope.
Open Scope nat_scope.

Lemma drawn_repeat s u t W : drawn s u t W = repeat_by (group_keys (s ++ [u]) (pandas_table t)) (List.map W (group_keys (s ++ [u]) (pandas_table t))).
Proof. symmetry. apply repeat_by_fun. Qed.
Lemma raw_rows s u ws t : pandas_table (raw_sample s u ws t) = poisson_units s u (pandas_table t) ws.
Proof.
  unfold raw_sample, poisson_units, rows_of_units, rows_of. generalize (repeat_by (group_keys (s ++ [u]) (pandas_table t)) ws). intros C.
  induction C as [|c C IH]; [reflexivity|]. cbn [flat_map]. unfold pandas_table in *. rewrite map_app, IH. f_equal. symmetry. apply slice_pandas.
Qed.
Lemma weigh_by_ext s u (W W' : list string -> nat) T : (forall g c, In g T -> spart (s ++ [u]) g = Some c -> W c = W' c) -> weigh_by s u W T = weigh_by s u W' T.
Proof. intros H. apply flat_map_ext_in. intros g Hg. destruct (spart (s ++ [u]) g) as [c|] eqn:E; [|reflexivity]. now rewrite (H g c Hg E). Qed.
(** weights by row *)
Lemma weigh_rows s u (W : list string -> nat) (v : nat -> nat) : forall (T : stable) (k : nat),
  (forall j g, nth_error T j = Some g -> exists c, spart (s ++ [u]) g = Some c /\ v (k + j)%nat = W c) ->
  flat_map (fun jr => weigh (v (fst jr)) (snd jr)) (combine (seq k (List.length T)) T) = weigh_by s u W T.
Proof.
  induction T as [|g T IH]; intros k H; [reflexivity|]. cbn [List.length seq combine flat_map fst snd weigh_by]. destruct (H 0%nat g eq_refl) as (c & E & Ew). rewrite E. rewrite Nat.add_0_r in Ew. rewrite Ew. f_equal.
  apply IH. intros j g' Hj. destruct (H (S j) g' Hj) as (c' & E' & Ew'). exists c'. split; [exact E'|]. now rewrite Nat.add_succ_r in Ew'.
Qed.
Lemma position_nth (f : srow -> option (list string)) : forall T j g c, NoDup (List.map f T) -> nth_error T j = Some g -> f g = Some c -> position c (List.map f T) = j.
Proof.
  induction T as [|g0 T IH]; intros [|j] g c ND E Ec; try discriminate; cbn [List.map position].
  - injection E as ->. rewrite Ec, key_eqb_refl. reflexivity.
  - inversion ND as [|? ? Hn ND']; subst. cbn [nth_error] in E. assert (f g0 <> Some c) as Hd. { intros E0. apply Hn. rewrite E0, <- Ec. apply in_map. eapply nth_error_In; eauto. }
    destruct (f g0) as [k'|] eqn:E0; [destruct (key_eqb k' c) eqn:Q; [apply key_eqb_eq in Q; congruence|]|]; f_equal; eauto.
Qed.

Lemma name_weighted pre m : named_by_kind pre m -> forall l fs, In (l, fs) (tree_leaves [] m) -> weighted (pre l fs) = true.
Proof. intros H l fs Hl. destruct (H l fs Hl) as (x & [E|E]); rewrite E; destruct x; reflexivity. Qed.

Section Main.
  Variables (parse : string -> cond) (srt : list okey -> list env -> list env) (psort : cum_how -> bool -> nat -> rframe -> rframe).
  Variables (rand : nat -> nat -> R) (fp : string -> R) (pre : leaf -> list string -> string).
  Variables (where_ : list string) (u : string) (N : nat) (m : otree) (s : list string) (t0 : stable).
  Hypothesis Hdb : db_sorts srt.
  Hypothesis Hps : pandas_sorts psort.
  Hypothesis Hparse : forall f, ~ In resample_idx (cond_labels (parse f)).
  Hypothesis Hsup : supported_tree (s ++ [resample_idx]) m.
  Hypothesis Hse : ~ In (boot_se_name (value_name m)) (s ++ extra_idx m).
  Hypothesis Hwhere : forall f r, In f where_ -> In r t0 -> same_verdict (parse f) r.
  Notation t := (filter (spass parse where_) t0).
  Notation U := ((s ++ extra_split m) ++ [u]). Notation su := (s ++ [u]).
  Notation D := (preagg parse pre (tree_leaves [] m) U t).
  Hypothesis Hunit : forall r, In r t -> slab r u <> None.
  Hypothesis HN : (1 <= N)%nat.
  Hypothesis Hne : t <> [].
  Hypothesis Hkind : sums_only m.
  Hypothesis Hpre : own_columns pre m.
  Hypothesis Hname : named_by_kind pre m.
  Hypothesis Hpoint : child_fits parse psort m s t.
  Notation units := (group_keys su (pandas_table t)).
  Notation v := (value_name m).
  Notation idx := (s ++ extra_idx m).
  Notation sample i := (poisson_weighted s (boot_unit u m) rand fp i D).
  Variable W : nat -> list string -> nat.
  Hypothesis HW : forall i, (1 <= i <= N)%nat -> sample i = weigh_by s u (W i) D.
  Notation ws i := (List.map (W i) units).
  Notation raw i := (raw_sample s u (ws i) t).
  Hypothesis Hraw : forall i, (1 <= i <= N)%nat -> raw i <> [].
  Hypothesis Hparts : forall i k, (1 <= i <= N)%nat -> rows_in s k (raw i) <> [] ->
    child_fits parse psort m [] (rows_in s k (raw i)) /\ every_leaf_has_rows parse m (rows_in s k (raw i)).

  Lemma q_labels r c : In r t -> In c U -> slab r c <> None.
  Proof. exact (all_labels parse psort where_ u m s t0 Hunit Hpoint r c). Qed.
  Lemma q_kinds l fs : In (l, fs) (tree_leaves [] m) -> sum_or_count_leaf l.
  Proof. apply Hkind. Qed.
  Lemma q_summary (V : list string -> nat) by_ : (forall x, In x by_ -> In x (s ++ extra_split m)) ->
    summary parse pre by_ (tree_leaves [] m) (rows_of s u (drawn s u t V) t) (weigh_by s u V D).
  Proof. exact (scaled_summary parse pre s (extra_split m) u t (tree_leaves [] m) Hne q_labels q_kinds Hpre (name_weighted pre m Hname) V by_). Qed.
  Lemma q_raw i : raw i = rows_of s u (drawn s u t (W i)) t.
  Proof. unfold raw_sample. now rewrite drawn_repeat. Qed.
  Lemma q_raw_labels i r c : In r (raw i) -> In c s -> slab r c <> None.
  Proof. intros Hr Hc. apply rows_of_in in Hr as (Hr & _). apply q_labels; [exact Hr|]. apply in_or_app. left. apply in_or_app. now left. Qed.
  (** a slice of a sample *)
  Definition only (k : list string) (V : list string -> nat) (c : list string) : nat := if key_eqb (firstn (List.length s) c) k then V c else 0%nat.
  Lemma q_slice_raw i k : rows_in s k (raw i) = rows_of s u (drawn s u t (only k (W i))) t.
  Proof.
    rewrite q_raw, (rows_in_rows_of s u) by apply drawn_len. f_equal. unfold drawn. clear Hraw Hparts. induction units as [|c cs IH]; [reflexivity|]. cbn [flat_map]. rewrite filter_app, IH. f_equal. unfold only.
    destruct (key_eqb (firstn (List.length s) c) k) eqn:E; [apply L_OpsA.filter_all|apply L_OpsA.filter_none]; intros x Hx; apply repeat_spec in Hx; now subst x.
  Qed.
  Lemma q_slice i k : (1 <= i <= N)%nat -> rows_in s k (sample i) = weigh_by s u (only k (W i)) D.
  Proof.
    intros Hi. rewrite (HW i Hi). unfold rows_in, weigh_by. clear Hraw Hparts. generalize D. intros D1. induction D1 as [|g D0 IH]; [reflexivity|]. cbn [flat_map]. rewrite filter_app, IH. f_equal. destruct (spart su g) as [c|] eqn:E; [|reflexivity].
    apply spart_srow in E. assert (srow_key s g = List.map Some (firstn (List.length s) c)) as Es.
    { rewrite srow_key_app' in E. rewrite <- firstn_map, <- E, firstn_app. unfold srow_key at 3. rewrite map_length, Nat.sub_diag. cbn [firstn]. rewrite app_nil_r. symmetry. apply firstn_all2. unfold srow_key. now rewrite map_length. }
    pose proof (group_weigh s (List.map Some k) (W i c) g) as G. unfold M_SqlLeaf.group in G. cbn beta in G. rewrite G. clear G. unfold only. destruct (key_eqb (firstn (List.length s) c) k) eqn:Q.
    - apply key_eqb_eq in Q. rewrite Q in Es. destruct (skey_dec (srow_key s g) (List.map Some k)); [reflexivity|congruence].
    - destruct (skey_dec (srow_key s g) (List.map Some k)) as [E'|]; [|reflexivity]. rewrite Es in E'. apply some_inj in E'. rewrite E', key_eqb_refl in Q. discriminate.
  Qed.
  Lemma q_ne (V : list string -> nat) : rows_of s u (drawn s u t V) t <> [] <-> weigh_by s u V D <> [].
  Proof.
    destruct (q_summary V []) as (_ & H & _); [intros x []|]. specialize (H []). split; intros Hn.
    - destruct (rows_of s u (drawn s u t V) t) as [|r T]; [congruence|]. destruct (proj1 H) as (g & Hg & _); [exists r; split; [now left|reflexivity]|]. intros E. rewrite E in Hg. destruct Hg.
    - destruct (weigh_by s u V D) as [|r T]; [congruence|]. destruct (proj2 H) as (g & Hg & _); [exists r; split; [now left|reflexivity]|]. intros E. rewrite E in Hg. destruct Hg.
  Qed.
  Lemma q_replicate i : (1 <= i <= N)%nat -> op_compute parse psort (push_tree pre [] m) s (pandas_table (sample i)) = op_compute parse psort m s (poisson_psample s (Some u) (pandas_table t) (ws i)).
  Proof.
    intros Hi. cbn [poisson_psample]. rewrite <- raw_rows, (HW i Hi).
    destruct (child_push parse psort pre m s (raw i) (weigh_by s u (W i) D)) as [E _]; [now apply Hraw| |exact q_kinds| |exact E].
    - apply (fits_whole parse psort m s (raw i)); [now apply Hraw|exact (sup_s m s Hsup)|apply q_raw_labels|]. intros k. now apply Hparts.
    - intros by' Hb. rewrite q_raw. now apply q_summary.
  Qed.
  Lemma q_part i k : (1 <= i <= N)%nat -> rows_in s k (sample i) <> [] ->
    child_fits parse psort (push_tree pre [] m) [] (rows_in s k (sample i)) /\ every_leaf_has_rows parse (push_tree pre [] m) (rows_in s k (sample i)).
  Proof.
    intros Hi Hk. split; [|now apply push_has_rows]. assert (rows_in s k (raw i) <> []) as Hr by (rewrite q_slice_raw; apply q_ne; now rewrite <- q_slice).
    destruct (Hparts i k Hi Hr) as ([Hf Ht] & _). destruct (child_push parse psort pre m [] (rows_in s k (raw i)) (rows_in s k (sample i)) Hr Hf q_kinds) as [_ H]; [|exact (H Ht)].
    intros by' Hb. rewrite q_slice_raw, (q_slice i k Hi). apply q_summary. intros x Hx. apply in_or_app. right. now apply Hb.
  Qed.
  Lemma q_sample_labels i r c : (1 <= i <= N)%nat -> In r (sample i) -> In c s -> slab r c <> None.
  Proof. intros Hi Hr Hc. rewrite (HW i Hi) in Hr. destruct (q_summary (W i) s) as (H & _); [intros x Hx; apply in_or_app; now left|]. now apply (H r c). Qed.
  Theorem same_poisson_pre : exists F, poisson_pandas parse psort (fun i => ws i) where_ (Some u) N m s (pandas_table t0) = Some F /\
    jk_same_rows (boot_shown idx v (poisson_sql_preagg parse srt rand fp pre where_ u N m s t0)) F /\
    (~ In (dof_name v) idx -> forall ppf confidence, jk_same_bounds ppf confidence (boot_bounds ppf confidence idx v (poisson_sql_preagg parse srt rand fp pre where_ u N m s t0)) F).
  Proof.
    destruct Hpoint as [Hpf Hpt].
    destruct (child_push parse psort pre m s t D Hne Hpf q_kinds) as [EP HP].
    { intros by' Hb. exact (D_summary parse pre s (extra_split m) u t (tree_leaves [] m) Hne q_labels q_kinds Hpre by' Hb). }
    destruct (same_given parse srt psort (fun i => sample i) N (push_tree pre [] m) s D) as (P & r0 & rs & EP' & Er & HF); auto.
    - now apply push_supported.
    - now rewrite push_value, push_index.
    - lia.
    - intros i Hi. rewrite (HW i Hi). apply q_ne. rewrite <- q_raw. now apply Hraw.
    - exact q_part.
    - exact q_sample_labels.
    - rewrite push_value, push_index in HF. cbv zeta in HF. unfold poisson_pandas. rewrite (where_pandas parse where_ t0 Hwhere), <- EP, EP'.
      assert (boot_replicates parse psort m s (List.map (fun i => poisson_psample s (Some u) (pandas_table t) (ws i)) (seq 1 N)) = boot_replicates parse psort (push_tree pre [] m) s (List.map (fun i => pandas_table (sample i)) (seq 1 N))) as ->.
      { assert (forall l', incl l' (seq 1 N) -> boot_replicates parse psort m s (List.map (fun i => poisson_psample s (Some u) (pandas_table t) (ws i)) l') = boot_replicates parse psort (push_tree pre [] m) s (List.map (fun i => pandas_table (sample i)) l')) as H; [|apply H, incl_refl].
        induction l' as [|i l' IH]; intros Hi; [reflexivity|]. unfold boot_replicates in *. cbn [List.map flat_map]. rewrite IH by (intros z Hz; apply Hi; now right). f_equal.
        rewrite q_replicate; [reflexivity|]. assert (In i (seq 1 N)) as H by (apply Hi; now left). apply in_seq in H. lia. }
      rewrite Er. eexists. split; [reflexivity|]. rewrite <- Er. unfold poisson_sql_preagg. cbv zeta. rewrite push_index. exact HF.
  Qed.
End Main.
