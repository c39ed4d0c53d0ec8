(** Bootstrap: the query and pandas on the same samples. *)
From Coq Require Import Reals List Bool String Arith ZArith Permutation Sorted Lia Lra.
From Verif Require Import M_Num M_Frame L_Frame M_Leaf M_Ops S_Ops M_Slices S_Slices L_Slices M_Jackknife S_Jackknife L_Jackknife L_Jackknife2 L_Jackknife3 L_JackSE M_Bootstrap M_BootSql M_SqlGlobal S_SqlGlobal L_SqlGlobal M_SqlLeaf S_SqlLeaf L_SqlLeaf L_SqlLeaf2 M_SqlOps S_SqlOps L_SqlOps L_SqlOps7 L_SqlSort L_SqlScope L_SqlJack2 L_SqlJack3 M_SqlJackknife S_SqlJackknife L_SqlJack1 L_SqlJack4 L_SqlJack5 L_SqlJack6 L_SqlJack7 M_SqlBoot S_SqlBoot L_SqlBoot1 L_SqlBoot2 L_SqlBoot3 S_RowOrder L_RowOrder.
Import ListNotations.
Open Scope string_scope.
Open Scope list_scope.

Lemma draw_nonempty s unit df ds : df <> [] -> (forall r c, In r df -> In c s -> lab r c <> None) -> (forall u r, unit = Some u -> In r df -> lab r u <> None) ->
  possible_draw (draw_sizes s unit df) ds -> boot_psample s unit df ds <> [].
Proof.
  intros Hdf Hlab Hunit H. destruct df as [|r0 df0] eqn:Edf; [congruence|]. rewrite <- Edf in *. assert (In r0 df) as Hr0 by (rewrite Edf; now left). clear Edf df0.
  destruct unit as [u|].
  - destruct (row_key_total (s ++ [u]) r0) as [K HK]. { intros c Hc. apply in_app_or in Hc as [Hc|[<-|[]]]; [now apply Hlab|now apply (Hunit u)]. }
    assert (In K (group_keys (s ++ [u]) df)) as HKu. { apply L_SqlLeaf2.group_keys_In. right. split; [destruct s; discriminate|eauto]. }
    assert (exists g, In g (unit_groups s u df) /\ g <> []) as (g & Hg & Hgn).
    { exists (filter (fun k => key_eqb (firstn (List.length s) k) (firstn (List.length s) K)) (group_keys (s ++ [u]) df)). split.
      - unfold unit_groups. cbn zeta. apply in_map_iff. exists (firstn (List.length s) K). split; [reflexivity|]. destruct s as [|c s'] eqn:Es; [now left|]. rewrite <- Es. apply sort_uniq_In, in_map. now rewrite Es.
      - intros E. assert (In K (filter (fun k => key_eqb (firstn (List.length s) k) (firstn (List.length s) K)) (group_keys (s ++ [u]) df))) as Hi by (apply filter_In; split; [exact HKu|apply key_eqb_refl]). rewrite E in Hi. destruct Hi. }
    assert (exists K', In K' (sample_groups (unit_groups s u df) ds) /\ In K' (group_keys (s ++ [u]) df)) as (K' & HK' & HKu').
    { assert (forall g' K', In g' (unit_groups s u df) -> In K' g' -> In K' (group_keys (s ++ [u]) df)) as Hin.
      { intros g' K' Hg' HK'. unfold unit_groups in Hg'. cbn zeta in Hg'. apply in_map_iff in Hg' as (k & <- & _). now apply filter_In in HK'. }
      unfold possible_draw, draw_sizes in H. revert ds H Hin Hg. induction (unit_groups s u df) as [|g0 gs IH]; intros ds H Hin Hg; [destruct Hg|]. cbn [List.map] in H. inversion H as [|? d ? ds' [Hd1 Hd2] Hds]; subst. cbn [sample_groups]. destruct Hg as [->|Hg].
      - destruct g as [|K' g]; [congruence|]. destruct d as [|x d]; [discriminate|]. inversion Hd2 as [|? ? Hx _]; subst. destruct (nth_error (K' :: g) x) as [z|] eqn:Ez; [|apply nth_error_None in Ez; lia].
        exists z. split; [apply in_or_app; left; unfold pick; cbn [flat_map]; rewrite Ez; now left|]. apply (Hin (K' :: g)); [now left|]. eapply nth_error_In; eauto.
      - destruct (IH ds' Hds) as (K' & H1 & H2); [intros g' K' Hg'; apply Hin; now right|exact Hg|]. exists K'. split; [apply in_or_app; now right|exact H2]. }
    intros E. unfold boot_psample, sample_by_unit, rows_of_units in E. apply L_SqlLeaf2.group_keys_In in HKu' as [[E0 _]|[_ (r & Hr & Hk)]]; [destruct s; discriminate|].
    assert (In r (flat_map (fun k => slice (s ++ [u]) k df) (sample_groups (unit_groups s u df) ds))) as Hi; [|rewrite E in Hi; destruct Hi]. apply in_flat_map. exists K'. split; [exact HK'|]. now apply slice_In.
  - destruct (row_key_total s r0) as [K HK]. { intros c Hc. now apply Hlab. }
    assert (In K (group_keys s df)) as HKu. { apply L_SqlLeaf2.group_keys_In. destruct s; [left|right]; [cbn in HK; injection HK as <-; auto|]. split; [discriminate|eauto]. }
    assert (slice s K df <> []) as Hne. { intros E. assert (In r0 (slice s K df)) as Hi by (now apply slice_In). rewrite E in Hi. destruct Hi. }
    unfold boot_psample, sample_by_row. unfold possible_draw, draw_sizes in H. revert ds H HKu. induction (group_keys s df) as [|k ks IH]; intros ds H HKu; [destruct HKu|]. cbn [List.map] in H. inversion H as [|? d ? ds' [Hd1 Hd2] Hds]; subst. cbn [List.map sample_groups]. intros E. apply app_eq_nil in E as [E1 E2].
    destruct HKu as [->|HKu]; [|now apply (IH ds' Hds HKu)]. apply (f_equal (@List.length _)) in E1. rewrite pick_length in E1 by exact Hd2. rewrite Hd1 in E1. destruct (slice s K df); [congruence|discriminate].
Qed.

Lemma index_ok m s : supported_tree (s ++ [resample_idx]) m -> NoDup ((s ++ [resample_idx]) ++ extra_idx m) /\ ~ In (value_name m) ((s ++ [resample_idx]) ++ extra_idx m).
Proof. intros Hsup. split; [now apply nodup_index|]. destruct m; apply Hsup. Qed.
Section Main.
  Variables (parse : string -> cond) (srt : list okey -> list env -> list env) (psort : cum_how -> bool -> nat -> rframe -> rframe).
  Variables (rand : nat -> nat -> R) (order : nat -> stable -> stable) (draws : nat -> list (list nat)).
  Variables (where_ : list string) (unit : option string) (N : nat) (m : otree) (s : list string) (t0 : stable).
  Hypothesis Hdb : db_sorts srt.
  Hypothesis Hps : pandas_sorts psort.
  Hypothesis Hparse : forall f, ~ In resample_idx (cond_labels (parse f)).
  Hypothesis Hsup : supported_tree (s ++ [resample_idx]) m.
  Hypothesis Hse : ~ In (boot_se_name (value_name m)) (s ++ extra_idx m).
  Hypothesis Hwhere : forall f r, In f where_ -> In r t0 -> same_verdict (parse f) r.
  Notation t := (filter (spass parse where_) t0).
  Notation sample := (fun i => boot_sample s unit rand i (order i t)).
  Hypothesis HN : N <> O.
  Hypothesis Hne : forall i, (1 <= i <= N)%nat -> sample i <> [].
  Hypothesis Horder : forall i, Permutation (order i t) t.
  Hypothesis Hpoint : child_fits parse psort m s t.
  Hypothesis Hparts : forall i k, (1 <= i <= N)%nat -> rows_in s k (sample i) <> [] ->
    child_fits parse psort m [] (rows_in s k (sample i)) /\ every_leaf_has_rows parse m (rows_in s k (sample i)).
  Hypothesis Hdraws : forall i, (1 <= i <= N)%nat -> Permutation (pandas_table (sample i)) (boot_psample s unit (pandas_table t) (draws i)).
  Notation v := (value_name m).
  Notation idx := (s ++ extra_idx m).
  Notation l := (seq 1 N).
  Lemma in_l i : In i l <-> (1 <= i <= N)%nat. Proof. rewrite in_seq. lia. Qed.
  Lemma sample_labels i r c : In i l -> In r (sample i) -> In c s -> slab r c <> None.
  Proof.
    intros _ Hr Hc. apply (sample_incl s unit i t (order i t) (Horder i)) in Hr.
    exact (split_labels parse psort where_ m s t0 Hpoint r c Hr Hc).
  Qed.
  Lemma parts_l i k : In i l -> rows_in s k (sample i) <> [] -> child_fits parse psort m [] (rows_in s k (sample i)) /\ every_leaf_has_rows parse m (rows_in s k (sample i)).
  Proof. intros Hi. apply Hparts. now apply in_l. Qed.
  Lemma ex_l : exists i k, In i l /\ rows_in s k (sample i) <> [].
  Proof.
    assert (In 1%nat l) as H1 by (apply in_l; lia). assert (sample 1%nat <> []) as Hn by (apply Hne; lia). destruct (sample 1%nat) as [|r T] eqn:E; [congruence|].
    destruct (srow_key_labels s r) as [k Ek]; [intros c Hc; apply (sample_labels 1%nat r c H1); [rewrite E; now left|exact Hc]|].
    exists 1%nat, k. split; [exact H1|]. rewrite E. intros E0. assert (In r (rows_in s k (r :: T))) as Hr; [apply rows_in_In; split; [now left|exact Ek]|]. rewrite E0 in Hr. destruct Hr.
  Qed.
  Lemma free : order_free m.
  Proof.
    apply (tree_free [] m s [] []). intros b ab lc by' Hb lf fs Hl. destruct Hpoint as [Hf _]. destruct (Hf b ab lc by' Hb) as (H1 & _). now apply (H1 lf fs Hl).
  Qed.
  Lemma same_replicates : boot_replicates parse psort m s (List.map (fun i => boot_psample s unit (pandas_table t) (draws i)) l) =
    boot_replicates parse psort m s (List.map (fun i => pandas_table (sample i)) l).
  Proof.
    assert (forall l', incl l' l -> boot_replicates parse psort m s (List.map (fun i => boot_psample s unit (pandas_table t) (draws i)) l') = boot_replicates parse psort m s (List.map (fun i => pandas_table (sample i)) l')) as H; [|apply H, incl_refl].
    induction l' as [|i l' IH]; intros Hi; [reflexivity|]. unfold boot_replicates in *. cbn [List.map flat_map]. rewrite IH by (intros z Hz; apply Hi; now right). f_equal.
    rewrite (op_perm parse psort m s _ _ free (Hdraws i (proj1 (in_l i) (Hi i (or_introl eq_refl))))). reflexivity.
  Qed.
  Theorem same_boot : exists F, bootstrap_pandas parse psort draws where_ unit N m s (pandas_table t0) = Some F /\
    jk_same_rows (boot_shown idx v (bootstrap_sql parse srt rand order where_ unit N m s t0)) F /\
    (~ In (dof_name v) idx -> forall ppf confidence, jk_same_bounds ppf confidence (boot_bounds ppf confidence idx v (bootstrap_sql parse srt rand order where_ unit N m s t0)) F).
  Proof.
    assert (NoDup l) as Hnd by apply seq_NoDup. pose proof sample_labels as Hlab. pose proof parts_l as Hpl. pose proof ex_l as Hex.
    destruct (index_ok m s Hsup) as [Hfi Hv].
    destruct (tag_samples parse psort m s l sample Hnd Hps Hparse Hsup Hlab Hpl Hex srt Hdb) as (R & ER & HR).
    destruct (tree_step parse srt psort t Hdb Hps [] m s [] []) as (P & EP & HPt & _); [exact (proj1 Hpoint)|exact (sup_s m s Hsup)|apply placed_nil|rewrite no_filters; exact (proj2 Hpoint)|]. rewrite no_filters in EP.
    set (reps := boot_replicates parse psort m s (List.map (fun i => pandas_table (sample i)) l)).
    assert (forall i, In i l -> sample i <> []) as Hnel by (intros i Hi; apply Hne; now apply in_l).
    assert (exists r0 rs, reps = r0 :: rs) as (r0 & rs & Er).
    { assert (In 1%nat l) as H1 by (apply in_l; lia). destruct (sample_value parse psort m s l sample Hnd Hps Hparse Hsup Hlab Hpl Hex Hnel R 1%nat (List.map (fun _ => "") s) [] ER) as (D & ED & _); [apply map_length|exact H1|].
      assert (In D reps) as Hi; [|destruct reps; [destruct Hi|eauto]]. unfold reps, boot_replicates. apply in_flat_map. exists (pandas_table (sample 1%nat)). split; [apply (in_map (fun i => pandas_table (sample i))); exact H1|]. rewrite ED. now left. }
    unfold bootstrap_pandas. rewrite (where_pandas parse where_ t0 Hwhere), EP, same_replicates. fold reps. rewrite Er. eexists. split; [reflexivity|]. rewrite <- Er.
    apply (same_se parse srt s (extra_idx m) v false Hfi Hv Hse (samples_sql m s) (point_sql m s) (boot_table s unit rand order N t) t R P reps HR HPt).
    intros K HK. destruct HR as (_ & _ & _ & _ & Rnd & _).
    pose proof (boot_agree parse psort m s l sample Hnd Hps Hparse Hsup Hlab Hpl Hex Hnel R (firstn (List.length s) K) (skipn (List.length s) K) ER Rnd) as HA. rewrite firstn_skipn in HA.
    apply HA. apply firstn_length_le. rewrite HK, app_length. lia.
  Qed.
End Main.
