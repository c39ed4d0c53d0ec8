(** PoissonBootstrap: the query and pandas on the same samples; the samples of the query are the draws of pandas. *)
From Coq Require Import Reals List Bool String Arith ZArith Permutation Sorted Lia Lra.
From Verif Require Import M_Num M_Frame L_Frame M_Leaf M_Ops S_Ops M_Slices S_Slices L_Slices M_Jackknife S_Jackknife L_Jackknife L_Jackknife2 L_Jackknife3 L_JackSE M_Bootstrap M_BootSql M_SqlGlobal S_SqlGlobal L_SqlGlobal M_SqlLeaf S_SqlLeaf L_SqlLeaf L_SqlLeaf2 M_SqlOps S_SqlOps L_SqlOps L_SqlOps7 L_SqlSort L_SqlScope L_SqlJack2 L_SqlJack3 M_SqlJackknife S_SqlJackknife L_SqlJack1 L_SqlJack4 L_SqlJack5 L_SqlJack6 L_SqlJack7 M_SqlBoot S_SqlBoot L_SqlBoot1 L_SqlBoot2 L_SqlBoot3 L_SqlBoot4 M_SqlText M_BootCache L_BootSql L_Bootstrap3 P_RowOrder M_SqlPoisson S_SqlPoisson S_RowOrder L_RowOrder.
Import ListNotations.
Open Scope string_scope.
Open Scope list_scope.

Lemma repeat_by_In {A} (l : list A) : forall ws x, In x (repeat_by l ws) -> In x l.
Proof. induction l as [|y l IH]; intros [|w ws] x H; try destruct H. cbn [repeat_by] in H. apply in_app_or in H as [H|H]; [apply repeat_spec in H; left; congruence|right; eauto]. Qed.
Lemma poisson_incl s unit rand fp i t r : In r (poisson_sample s unit rand fp i t) -> In r t.
Proof.
  destruct unit as [u|]; cbn [poisson_sample]; [|apply repeat_by_In]. intros H. apply in_flat_map in H as (r' & Hr' & H).
  destruct (spart (s ++ [u]) r'); [|destruct H]. apply repeat_spec in H. congruence.
Qed.
Section PoissonMain.
  Variables (parse : string -> cond) (srt : list okey -> list env -> list env) (psort : cum_how -> bool -> nat -> rframe -> rframe).
  Variables (rand : nat -> nat -> R) (fp : string -> R) (weights : nat -> list nat).
  Variables (where_ : list string) (unit : option string) (N : nat) (m : otree) (s : list string) (t0 : stable).
  Hypothesis Hdb : db_sorts srt.
  Hypothesis Hps : pandas_sorts psort.
  Hypothesis Hparse : forall f, ~ In resample_idx (cond_labels (parse f)).
  Hypothesis Hsup : supported_tree (s ++ [resample_idx]) m.
  Hypothesis Hse : ~ In (boot_se_name (value_name m)) (s ++ extra_idx m).
  Hypothesis Hwhere : forall f r, In f where_ -> In r t0 -> same_verdict (parse f) r.
  Notation t := (filter (spass parse where_) t0).
  Notation sample := (fun i => poisson_sample s unit rand fp i t).
  Hypothesis HN : N <> O.
  Hypothesis Hne : forall i, (1 <= i <= N)%nat -> sample i <> [].
  Hypothesis Hpoint : child_fits parse psort m s t.
  Hypothesis Hparts : forall i k, (1 <= i <= N)%nat -> rows_in s k (sample i) <> [] ->
    child_fits parse psort m [] (rows_in s k (sample i)) /\ every_leaf_has_rows parse m (rows_in s k (sample i)).
  Hypothesis Hdraws : forall i, (1 <= i <= N)%nat -> Permutation (pandas_table (sample i)) (poisson_psample s unit (pandas_table t) (weights i)).
  Notation v := (value_name m).
  Notation idx := (s ++ extra_idx m).
  Notation l := (seq 1 N).
  Lemma p_in_l i : In i l <-> (1 <= i <= N)%nat. Proof. rewrite in_seq. lia. Qed.
  Lemma p_sample_labels i r c : In i l -> In r (sample i) -> In c s -> slab r c <> None.
  Proof.
    intros _ Hr Hc. apply poisson_incl in Hr.
    exact (split_labels parse psort where_ m s t0 Hpoint r c Hr Hc).
  Qed.
  Lemma p_parts_l i k : In i l -> rows_in s k (sample i) <> [] -> child_fits parse psort m [] (rows_in s k (sample i)) /\ every_leaf_has_rows parse m (rows_in s k (sample i)).
  Proof. intros Hi. apply Hparts. now apply p_in_l. Qed.
  Lemma p_ex_l : exists i k, In i l /\ rows_in s k (sample i) <> [].
  Proof.
    assert (In 1%nat l) as H1 by (apply p_in_l; lia). assert (sample 1%nat <> []) as Hn by (apply Hne; lia). destruct (sample 1%nat) as [|r T] eqn:E; [congruence|].
    destruct (srow_key_labels s r) as [k Ek]; [intros c Hc; apply (p_sample_labels 1%nat r c H1); [rewrite E; now left|exact Hc]|].
    exists 1%nat, k. split; [exact H1|]. rewrite E. intros E0. assert (In r (rows_in s k (r :: T))) as Hr; [apply rows_in_In; split; [now left|exact Ek]|]. rewrite E0 in Hr. destruct Hr.
  Qed.
  Lemma p_free : order_free m.
  Proof.
    apply (tree_free [] m s [] []). intros b ab lc by' Hb lf fs Hl. destruct Hpoint as [Hf _]. destruct (Hf b ab lc by' Hb) as (H1 & _). now apply (H1 lf fs Hl).
  Qed.
  Lemma p_same_replicates : boot_replicates parse psort m s (List.map (fun i => poisson_psample s unit (pandas_table t) (weights i)) l) =
    boot_replicates parse psort m s (List.map (fun i => pandas_table (sample i)) l).
  Proof.
    assert (forall l', incl l' l -> boot_replicates parse psort m s (List.map (fun i => poisson_psample s unit (pandas_table t) (weights i)) l') = boot_replicates parse psort m s (List.map (fun i => pandas_table (sample i)) l')) as H; [|apply H, incl_refl].
    induction l' as [|i l' IH]; intros Hi; [reflexivity|]. unfold boot_replicates in *. cbn [List.map flat_map]. rewrite IH by (intros z Hz; apply Hi; now right). f_equal.
    rewrite (op_perm parse psort m s _ _ p_free (Hdraws i (proj1 (p_in_l i) (Hi i (or_introl eq_refl))))). reflexivity.
  Qed.
  Theorem same_poisson : exists F, poisson_pandas parse psort weights where_ unit N m s (pandas_table t0) = Some F /\
    jk_same_rows (boot_shown idx v (poisson_sql parse srt rand fp where_ unit N m s t0)) F /\
    (~ In (dof_name v) idx -> forall ppf confidence, jk_same_bounds ppf confidence (boot_bounds ppf confidence idx v (poisson_sql parse srt rand fp where_ unit N m s t0)) F).
  Proof.
    assert (NoDup l) as Hnd by apply seq_NoDup. pose proof p_sample_labels as Hlab. pose proof p_parts_l as Hpl. pose proof p_ex_l as Hex.
    destruct (index_ok m s Hsup) as [Hfi Hv].
    destruct (tag_samples parse psort m s l sample Hnd Hps Hparse Hsup Hlab Hpl Hex srt Hdb) as (R & ER & HR).
    destruct (tree_step parse srt psort t Hdb Hps [] m s [] []) as (P & EP & HPt & _); [exact (proj1 Hpoint)|exact (sup_s m s Hsup)|apply placed_nil|rewrite no_filters; exact (proj2 Hpoint)|]. rewrite no_filters in EP.
    set (reps := boot_replicates parse psort m s (List.map (fun i => pandas_table (sample i)) l)).
    assert (forall i, In i l -> sample i <> []) as Hnel by (intros i Hi; apply Hne; now apply p_in_l).
    assert (exists r0 rs, reps = r0 :: rs) as (r0 & rs & Er).
    { assert (In 1%nat l) as H1 by (apply p_in_l; lia). destruct (sample_value parse psort m s l sample Hnd Hps Hparse Hsup Hlab Hpl Hex Hnel R 1%nat (List.map (fun _ => "") s) [] ER) as (D & ED & _); [apply map_length|exact H1|].
      assert (In D reps) as Hi; [|destruct reps; [destruct Hi|eauto]]. unfold reps, boot_replicates. apply in_flat_map. exists (pandas_table (sample 1%nat)). split; [apply (in_map (fun i => pandas_table (sample i))); exact H1|]. rewrite ED. now left. }
    unfold poisson_pandas. rewrite (where_pandas parse where_ t0 Hwhere), EP, p_same_replicates. fold reps. rewrite Er. eexists. split; [reflexivity|]. rewrite <- Er.
    apply (same_se parse srt s (extra_idx m) v false Hfi Hv Hse (samples_sql m s) (point_sql m s) (poisson_table s unit rand fp N t) t R P reps HR HPt).
    intros K HK. destruct HR as (_ & _ & _ & _ & Rnd & _).
    pose proof (boot_agree parse psort m s l sample Hnd Hps Hparse Hsup Hlab Hpl Hex Hnel R (firstn (List.length s) K) (skipn (List.length s) K) ER Rnd) as HA. rewrite firstn_skipn in HA.
    apply HA. apply firstn_length_le. rewrite HK, app_length. lia.
  Qed.
End PoissonMain.
