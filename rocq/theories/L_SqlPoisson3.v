(** A resampling method whose samples are any tables: the query, and pandas on these samples (as L_SqlBoot4). *)
From Coq Require Import Reals List Bool String Arith ZArith Permutation Sorted Lia Lra.
From Verif Require Import M_Num M_Frame L_Frame M_Leaf M_Ops S_Ops M_Slices S_Slices L_Slices M_Jackknife S_Jackknife L_Jackknife L_Jackknife2 L_Jackknife3 L_JackSE M_Bootstrap M_BootSql M_SqlGlobal S_SqlGlobal L_SqlGlobal M_SqlLeaf S_SqlLeaf L_SqlLeaf L_SqlLeaf2 M_SqlOps S_SqlOps L_SqlOps L_SqlOps7 L_SqlSort L_SqlScope L_SqlJack2 L_SqlJack3 M_SqlJackknife S_SqlJackknife L_SqlJack1 L_SqlJack4 L_SqlJack5 L_SqlJack6 L_SqlJack7 M_SqlBoot S_SqlBoot L_SqlBoot1 L_SqlBoot2 L_SqlBoot3 L_SqlBoot4 L_SqlBootPre1 M_SqlText M_BootCache L_BootSql L_Bootstrap3 P_RowOrder M_SqlPoisson S_SqlPoisson L_SqlPoisson1 S_RowOrder L_RowOrder.
Import ListNotations.
Open Scope string_scope.
Open Scope list_scope.

Section Given.
  Variables (parse : string -> cond) (srt : list okey -> list env -> list env) (psort : cum_how -> bool -> nat -> rframe -> rframe).
  Variables (sample : nat -> stable).
  Variables (N : nat) (m : otree) (s : list string) (t : stable).
  Hypothesis Hdb : db_sorts srt.
  Hypothesis Hps : pandas_sorts psort.
  Hypothesis Hparse : forall f, ~ In resample_idx (cond_labels (parse f)).
  Hypothesis Hsup : supported_tree (s ++ [resample_idx]) m.
  Hypothesis Hse : ~ In (boot_se_name (value_name m)) (s ++ extra_idx m).
  Hypothesis HN : N <> O.
  Hypothesis Hne : forall i, (1 <= i <= N)%nat -> sample i <> [].
  Hypothesis Hpoint : child_fits parse psort m s t.
  Hypothesis Hparts : forall i k, (1 <= i <= N)%nat -> rows_in s k (sample i) <> [] ->
    child_fits parse psort m [] (rows_in s k (sample i)) /\ every_leaf_has_rows parse m (rows_in s k (sample i)).
  Hypothesis Hlabels : forall i r c, (1 <= i <= N)%nat -> In r (sample i) -> In c s -> slab r c <> None.
  Notation v := (value_name m).
  Notation idx := (s ++ extra_idx m).
  Notation l := (seq 1 N).
  Lemma g_in_l i : In i l <-> (1 <= i <= N)%nat. Proof. rewrite in_seq. lia. Qed.
  Lemma g_sample_labels i r c : In i l -> In r (sample i) -> In c s -> slab r c <> None.
  Proof. intros Hi. apply Hlabels. now apply g_in_l. Qed.
  Lemma g_parts_l i k : In i l -> rows_in s k (sample i) <> [] -> child_fits parse psort m [] (rows_in s k (sample i)) /\ every_leaf_has_rows parse m (rows_in s k (sample i)).
  Proof. intros Hi. apply Hparts. now apply g_in_l. Qed.
  Lemma g_ex_l : exists i k, In i l /\ rows_in s k (sample i) <> [].
  Proof.
    assert (In 1%nat l) as H1 by (apply g_in_l; lia). assert (sample 1%nat <> []) as Hn by (apply Hne; lia). destruct (sample 1%nat) as [|r T] eqn:E; [congruence|].
    destruct (srow_key_labels s r) as [k Ek]; [intros c Hc; apply (g_sample_labels 1%nat r c H1); [rewrite E; now left|exact Hc]|].
    exists 1%nat, k. split; [exact H1|]. rewrite E. intros E0. assert (In r (rows_in s k (r :: T))) as Hr; [apply rows_in_In; split; [now left|exact Ek]|]. rewrite E0 in Hr. destruct Hr.
  Qed.
  Notation reps := (boot_replicates parse psort m s (List.map (fun i => pandas_table (sample i)) l)).
  Notation query := (with_se_of false idx (samples_sql m s) (run_sql parse srt (samples_sql m s) (flat_map (fun i => List.map (relabel (Some (tag i))) (sample i)) l)) (point_sql m s) (run_sql parse srt (point_sql m s) t)).
  Theorem same_given : exists P r0 rs, op_compute parse psort m s (pandas_table t) = Some P /\ reps = r0 :: rs /\
    let F := List.map (fun q => let l := direct_row reps (fst q) in (fst q, snd q, std_of l, dof_of l)) P in
    jk_same_rows (boot_shown idx v query) F /\ (~ In (dof_name v) idx -> forall ppf confidence, jk_same_bounds ppf confidence (boot_bounds ppf confidence idx v query) F).
  Proof.
    assert (NoDup l) as Hnd by apply seq_NoDup. pose proof g_sample_labels as Hlab. pose proof g_parts_l as Hpl. pose proof g_ex_l as Hex.
    destruct (index_ok m s Hsup) as [Hfi Hv].
    destruct (tag_samples parse psort m s l sample Hnd Hps Hparse Hsup Hlab Hpl Hex srt Hdb) as (R & ER & HR).
    destruct (tree_step parse srt psort t Hdb Hps [] m s [] []) as (P & EP & HPt & _); [exact (proj1 Hpoint)|exact (sup_s m s Hsup)|apply placed_nil|rewrite no_filters; exact (proj2 Hpoint)|]. rewrite no_filters in EP.
    assert (forall i, In i l -> sample i <> []) as Hnel by (intros i Hi; apply Hne; now apply g_in_l).
    assert (exists r0 rs, reps = r0 :: rs) as (r0 & rs & Er).
    { assert (In 1%nat l) as H1 by (apply g_in_l; lia). destruct (sample_value parse psort m s l sample Hnd Hps Hparse Hsup Hlab Hpl Hex Hnel R 1%nat (List.map (fun _ => "") s) [] ER) as (D & ED & _); [apply map_length|exact H1|].
      assert (In D reps) as Hi; [|destruct reps as [|r0 rs]; [destruct Hi|exists r0, rs; reflexivity]]. unfold boot_replicates. apply in_flat_map. exists (pandas_table (sample 1%nat)). split; [apply (in_map (fun i => pandas_table (sample i))); exact H1|]. rewrite ED. now left. }
    exists P, r0, rs. split; [exact EP|]. split; [exact Er|]. cbv zeta.
    apply (same_se parse srt s (extra_idx m) v false Hfi Hv Hse (samples_sql m s) (point_sql m s) (flat_map (fun i => List.map (relabel (Some (tag i))) (sample i)) l) t R P (boot_replicates parse psort m s (List.map (fun i => pandas_table (sample i)) l)) HR HPt).
    intros K HK. destruct HR as (_ & _ & _ & _ & Rnd & _).
    pose proof (boot_agree parse psort m s l sample Hnd Hps Hparse Hsup Hlab Hpl Hex Hnel R (firstn (List.length s) K) (skipn (List.length s) K) ER Rnd) as HA. rewrite firstn_skipn in HA.
    apply HA. apply firstn_length_le. rewrite HK, app_length. lia.
  Qed.
End Given.
