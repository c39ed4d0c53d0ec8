(** Lemmas for C71: one batch. *)
From Coq Require Import Reals List Bool String Arith ZArith Permutation Lia.
From Verif Require Import M_Num M_Frame L_Frame M_Leaf M_Ops L_OpsA L_OpsB L_OpsC M_Slices S_Slices L_Slices M_Jackknife S_Jackknife L_Jackknife2 L_Jackknife3 M_BootCache L_BootCache M_SqlGlobal S_SqlGlobal M_SqlLeaf S_SqlLeaf L_SqlLeaf L_SqlLeaf2 M_SqlOps S_SqlOps L_SqlOps L_SqlOps7 L_SqlSort L_SqlScope L_SqlJack2 L_SqlJack3 M_SqlJackknife S_SqlJackknife L_SqlJack1 L_SqlJack4 L_SqlJack5 L_SqlJack6 L_SqlJack7 M_SqlMixed S_SqlMixed L_SqlMixed M_SqlMixedJack L_SqlMixedJack1 M_SqlBoot S_SqlBoot L_SqlBoot1 M_SqlMixedBoot S_SqlMixedBoot.
Import ListNotations.
Open Scope string_scope.
Open Scope list_scope.

(** ** Queries that see the same table *)
Section Same.
  Variable parse : string -> cond.
  Variable dbo : query -> list (skey * option R) -> list (skey * option R).
  Variable psort : cum_how -> bool -> nat -> rframe -> rframe.
  Variables (tab : leaf_query -> stable) (T : stable).
  Lemma queries_metric_same m : forall above by_, (forall x, In x (metric_leaves m above by_) -> tab x = T) ->
    queries_metric parse dbo tab m above by_ = mixed_metric parse dbo m by_ (sub_table parse above T).
  Proof.
    induction m as [l w|op a IHa b IHb w|op x a IHa w|op a IHa x w|a IHa w|a IHa w]; intros above by_ H; cbn [queries_metric mixed_metric metric_leaves] in *; rewrite ?sub_sub.
    - rewrite H by now left. reflexivity.
    - rewrite IHa, IHb; [reflexivity| |]; intros y Hy; apply H, in_or_app; auto.
    - now rewrite IHa.
    - now rewrite IHa.
    - now rewrite IHa.
    - now rewrite IHa.
  Qed.
  Lemma queries_same m : forall above by_, (forall x, In x (tree_leaves m above by_) -> tab x = T) ->
    queries parse dbo psort tab m above by_ = mixed parse dbo psort m by_ (sub_table parse above T).
  Proof.
    induction m as [m name|over c IH w|over how asc c IH w|p cond base incl c IH w|d over c IH w|op x IHa y IHb name w|op x c IH name w|op c IH x name w];
      intros above by_ H; cbn [queries mixed tree_leaves] in *; cbv zeta; rewrite ?sub_sub; try (now rewrite IH).
    - now rewrite queries_metric_same.
    - rewrite IHa, IHb; [reflexivity| |]; intros z Hz; apply H, in_or_app; auto.
  Qed.
End Same.
Lemma metric_leaf_exists m : forall above by_, exists x, In x (metric_leaves m above by_).
Proof. induction m as [l w|op a IHa b IHb w|op x a IHa w|op a IHa x w|a IHa w|a IHa w]; intros above by_; cbn [metric_leaves]; auto; [eexists; now left|destruct (IHa (above ++ w) by_) as [x Hx]; exists x; apply in_or_app; auto]. Qed.
Lemma leaf_exists m : forall above by_, exists x, In x (tree_leaves m above by_).
Proof.
  induction m as [m name|over c IH w|over how asc c IH w|p cond base incl c IH w|d over c IH w|op x IHa y IHb name w|op x c IH name w|op c IH x name w]; intros above by_; cbn [tree_leaves]; auto; [apply metric_leaf_exists|].
  destruct (IHa (above ++ w) by_) as [z Hz]. exists z. apply in_or_app. auto.
Qed.
Lemma one_query_split m p : one_query m -> forall x y, In x (tree_leaves m [] p) -> In y (tree_leaves m [] p) -> x = y.
Proof.
  intros H [[[l ab] w] by1] [[[l' ab'] w'] by2] Hx Hy. rewrite <- (app_nil_r p) in Hx, Hy. apply leaves_prefix in Hx as (e & -> & Hx). apply leaves_prefix in Hy as (e' & -> & Hy).
  pose proof (H _ _ Hx Hy) as E. now injection E as -> -> -> ->.
Qed.

(** ** The order of the columns a tree is split by does not matter for its names *)
Lemma supported_perm m : forall a b, Permutation a b -> supported_tree a m -> supported_tree b m.
Proof.
  assert (forall (x : string) (a b e : list string), Permutation a b -> ~ In x (a ++ e) -> ~ In x (b ++ e)) as HN.
  { intros x a b e HP Hn Hi. apply Hn. apply in_app_or in Hi as [Hi|Hi]; apply in_or_app; [left; apply (Permutation_in _ (Permutation_sym HP) Hi)|now right]. }
  assert (forall (x : string) (a b : list string), Permutation a b -> ~ In x a -> ~ In x b) as HN0 by (intros x a b HP Hn Hi; apply Hn; apply (Permutation_in _ (Permutation_sym HP) Hi)).
  induction m as [m name|over c IH w|over how asc c IH w|p cond base incl c IH w|d over c IH w|op x IHa y IHb name w|op x c IH name w|op c IH x name w];
    intros a b HP [H1 H]; (split; [now apply (HN _ a)|]); cbn [supported_tree] in *.
  - apply (Permutation_NoDup HP H).
  - destruct H as (A & B & C). split; [exact A|]. split; [exact B|]. apply (IH (a ++ over)); [now apply Permutation_app_tail|exact C].
  - destruct H as (A & B & C & D & F). repeat split; auto; [now apply (HN _ a)|]. apply (IH (a ++ over)); [now apply Permutation_app_tail|exact F].
  - destruct H as (A & B & C). repeat split; auto. apply (IH (a ++ cond)); [now apply Permutation_app_tail|exact C].
  - destruct H as (A & B & C & D). repeat split; auto; [now apply (HN0 _ a)|]. apply (IH (a ++ over)); [now apply Permutation_app_tail|exact D].
  - destruct H as (A & B & C & D & F & G). split; [now apply (IHa a)|]. split; [now apply (IHb a)|]. split; [exact C|]. split; [now apply (HN _ a)|]. split; [now apply (HN _ a)|exact G].
  - now apply (IH a).
  - now apply (IH a).
Qed.

(** ** One batch *)
Lemma present_cons x l : present (x :: l) = if is_nan x then present l else x :: present l.
Proof. unfold present. cbn [filter]. now destruct (is_nan x). Qed.
Lemma lookup_tagged i K (fr : rframe) :
  lookup K (List.map (fun q => (tl (fst q), snd q)) (filter (fun q : list string * num => match fst q with x :: _ => String.eqb x (tag i) | [] => false end) fr)) = lookup (tag i :: K) fr.
Proof.
  induction fr as [|[k v] fr IH]; [reflexivity|]. cbn [filter fst]. cbn [lookup]. destruct (key_eqb k (tag i :: K)) eqn:E.
  - apply key_eqb_eq in E as ->. rewrite String.eqb_refl. cbn [List.map fst snd tl lookup]. now rewrite (proj2 (key_eqb_eq K K) eq_refl).
  - destruct k as [|x k]; [exact IH|]. destruct (String.eqb_spec x (tag i)) as [->|Hx]; [|exact IH]. cbn [List.map fst snd tl lookup]. destruct (key_eqb k K) eqn:E2; [|exact IH].
    apply key_eqb_eq in E2 as ->. rewrite (proj2 (key_eqb_eq (tag i :: K) (tag i :: K)) eq_refl) in E. discriminate.
Qed.
Lemma unstacked_present size fr K : present (List.map (lookup K) (unstacked size fr)) = present (List.map (fun i => lookup (tag i :: K) fr) (seq 1 size)).
Proof.
  unfold unstacked.
  match goal with |- present (List.map _ (flat_map ?F _)) = _ => set (f := F) end.
  assert (forall i, present (List.map (lookup K) (f i)) = present [lookup (tag i :: K) fr]) as H.
  { intros i. unfold f. rewrite <- (lookup_tagged i K fr). destruct (filter _ fr) as [|q rows]; reflexivity. }
  generalize (seq 1 size) as l. induction l as [|i l IH]; [reflexivity|]. cbn [flat_map List.map].
  rewrite map_app, present_app. etransitivity; [exact (f_equal2 (@app num) (H i) IH)|]. rewrite <- present_app. reflexivity.
Qed.

Section Batch.
  Variables (parse : string -> cond) (dbo : query -> list (skey * option R) -> list (skey * option R)) (psort : cum_how -> bool -> nat -> rframe -> rframe).
  Variables (m : otree) (s : list string) (size : nat) (sample : nat -> stable).
  Notation l := (seq 1 size).
  Hypothesis Hsize : size <> O.
  Hypothesis Hdb : some_order dbo.
  Hypothesis Hps : pandas_sorts psort.
  Hypothesis Hparse : forall f, ~ In resample_idx (cond_labels (parse f)).
  Hypothesis Hsup : supported_tree (s ++ [resample_idx]) m.
  Hypothesis Hlab : forall i r c, In i l -> In r (sample i) -> In c s -> slab r c <> None.
  Hypothesis Hfit : forall i k, In i l -> rows_in s k (sample i) <> [] ->
    child_fits parse psort m [] (rows_in s k (sample i)) /\ every_leaf_has_rows parse m (rows_in s k (sample i)) /\ mixed_fits parse m [] [] (rows_in s k (sample i)).
  Hypothesis Hne : forall i, In i l -> sample i <> [].
  Notation T := (tagged l sample).
  Notation n := (List.length s).
  Notation lo := (fun k i => rows_in s k (sample i)).
  Notation p := (resample_idx :: s).
  Lemma Hparts i k : In i l -> rows_in s k (sample i) <> [] -> child_fits parse psort m [] (rows_in s k (sample i)) /\ every_leaf_has_rows parse m (rows_in s k (sample i)).
  Proof. intros Hi Hn. destruct (Hfit i k Hi Hn) as (A & B & _). auto. Qed.
  Lemma one_in : In 1%nat l. Proof. apply in_seq. lia. Qed.
  Lemma Hex : exists i k, In i l /\ rows_in s k (sample i) <> [].
  Proof. destruct (sample_key s l sample Hlab Hne 1%nat one_in) as [k Hk]. exists 1%nat, k. split; [exact one_in|exact Hk]. Qed.
  Lemma front_key (r : srow) x k : srow_key p r = Some x :: List.map Some k <-> srow_key (s ++ [resample_idx]) r = List.map Some (k ++ [x]).
  Proof.
    unfold srow_key. rewrite map_app. cbn [List.map]. rewrite map_app. cbn [List.map]. split.
    - intros E. injection E as E1 E2. now rewrite E1, E2.
    - intros E. apply app_inj_tail in E as [E1 E2]. now rewrite E1, E2.
  Qed.
  Lemma front_group i k : In i l -> M_SqlLeaf.group p (List.map Some (tag i :: k)) T = List.map (relabel (Some (tag i))) (lo k i).
  Proof.
    intros Hi. etransitivity; [|exact (tag_group m s l sample (seq_NoDup _ _) Hsup i k Hi)]. unfold M_SqlLeaf.group. apply filter_ext. intros r. cbn [List.map]. pose proof (front_key r (tag i) k) as H.
    destruct (skey_dec (srow_key p r) (Some (tag i) :: List.map Some k)) as [E|E], (skey_dec (srow_key (s ++ [resample_idx]) r) (List.map Some (k ++ [tag i]))) as [E'|E']; try reflexivity; exfalso; tauto.
  Qed.
  Lemma front_inv K : M_SqlLeaf.group p (List.map Some K) T <> [] -> exists i k, K = tag i :: k /\ In i l /\ lo k i <> [].
  Proof.
    intros H. destruct (M_SqlLeaf.group p (List.map Some K) T) as [|r' rest] eqn:E; [congruence|]. assert (In r' (M_SqlLeaf.group p (List.map Some K) T)) as Hr by (rewrite E; now left).
    apply filter_In in Hr as [Hr Hk]. destruct (skey_dec (srow_key p r') (List.map Some K)) as [Ek|]; [|discriminate].
    destruct (tag_row s l sample Hlab r' Hr) as (i & k & r & -> & Hi & Hr'). exists i, k. pose proof (lo_ne s sample i k r Hr') as Hn0. split; [|auto].
    apply rows_in_In in Hr' as [_ Er]. apply some_inj. rewrite <- Ek. cbn [List.map]. apply front_key. rewrite (srow_key_idx s (fresh m s Hsup)), Er, map_app. reflexivity.
  Qed.
  Theorem batch_columns : exists cols, option_map (unstacked size) (mixed parse dbo psort m p T) = Some cols /\
    forall k g, List.length k = n ->
      present (List.map (lookup (k ++ g)) cols) = present (direct_row (boot_replicates parse psort m s (List.map (fun i => pandas_table (sample i)) l)) (k ++ g)).
  Proof.
    pose proof (tag_avoids parse psort m s l sample Hsup Hparts Hex) as Hav.
    assert (T <> []) as HT.
    { intros E. destruct Hex as (i & k & Hi & Hn). apply Hn. pose proof (front_group i k Hi) as F. rewrite E in F. cbn in F. symmetry in F. now apply map_eq_nil in F. }
    assert (supported_tree p m) as Hsup' by (apply (supported_perm m (s ++ [resample_idx])); [apply Permutation_sym, Permutation_cons_append|exact Hsup]).
    destruct (whole_of parse dbo psort Hdb Hps m p T) as (D & ED & _ & HD & HK); auto.
    - discriminate.
    - intros r' Hr. destruct (tag_row s l sample Hlab r' Hr) as (i & k & r & -> & Hi & Hr'). exists (tag i :: k). cbn [List.map]. apply front_key. apply rows_in_In in Hr' as [_ Er]. rewrite (srow_key_idx s (fresh m s Hsup)), Er, map_app. reflexivity.
    - intros K HKn. destruct (front_inv K HKn) as (i & k & -> & Hi & Hn). rewrite (front_group i k Hi). destruct (Hfit i k Hi Hn) as (A & B & C). split; [apply mixed_relabel; auto; exact (sup_idx m s Hsup)|].
      rewrite pandas_relabels. exact (relabel_ok parse psort m s Hps Hparse Hsup (Some (tag i)) _ Hav A B).
    - rewrite ED. cbn [option_map]. eexists. split; [reflexivity|]. intros k g Hk. rewrite unstacked_present. f_equal. unfold direct_row, boot_replicates. rewrite L_Bootstrap.flat_map_map.
      destruct (tag_whole parse psort m s l sample (seq_NoDup _ _) Hps Hparse Hsup Hlab Hparts Hex) as (R & ER & HR & HRk & _).
      assert (forall i, In i l -> lookup (tag i :: k ++ g) D = lookup (k ++ tag i :: g) R) as HV.
      { intros i Hi. destruct (rows_in s k (sample i)) as [|r0 rows] eqn:Esl.
        - rewrite !lookup_None; [reflexivity| |].
          + intros Hq. apply in_map_iff in Hq as ([q v] & E & Hq). cbn [fst] in E. subst q. destruct (HRk _ Hq) as (i' & k' & g' & E & Hi' & Hne'). cbn [fst] in E.
            pose proof (lo_len s sample i' k' Hne') as Hl. destruct (app_len_inj k k' (tag i :: g) (tag i' :: g')) as [E1 E2]; [lia|exact E|]. injection E2 as E2 _. apply tag_inj in E2. subst. now apply Hne'.
          + intros Hq. apply in_map_iff in Hq as ([q v] & E & Hq). cbn [fst] in E. subst q. apply HK in Hq. cbn [fst List.length] in Hq. change (tag i :: k ++ g) with ((tag i :: k) ++ g) in Hq. rewrite firstn_app_len in Hq by (cbn; lia).
            apply Hq. rewrite (front_group i k Hi), Esl. reflexivity.
        - assert (lo k i <> []) as Hn by (cbn beta; rewrite Esl; discriminate).
          assert (M_SqlLeaf.group p (List.map Some (tag i :: k)) T <> []) as Hn' by (rewrite (front_group i k Hi), Esl; discriminate).
          pose proof (HD _ Hn') as E1. rewrite (front_group i k Hi), pandas_relabels, op_compute_G in E1 by assumption. rewrite (HR i k Hi Hn) in E1. injection E1 as E1.
          change (tag i :: k ++ g) with ((tag i :: k) ++ g). replace (k ++ tag i :: g) with ((k ++ [tag i]) ++ g) by (rewrite <- app_assoc; reflexivity).
          rewrite <- (lookup_restrict (S n) (tag i :: k) g D) by (cbn; lia). rewrite <- (lookup_restrict (S n) (k ++ [tag i]) g R) by (rewrite app_length; cbn; lia). cbn [List.length] in E1. now rewrite E1. }
      assert (forall l', incl l' l -> List.map (fun i => lookup (tag i :: k ++ g) D) l' = List.map (lookup (k ++ g)) (flat_map (fun i => match op_compute parse psort m s (pandas_table (sample i)) with Some r => [r] | None => [] end) l')) as H; [|apply H, incl_refl].
      induction l' as [|i l' IH]; intros Hi; [reflexivity|]. cbn [flat_map List.map]. rewrite map_app, <- IH by (intros z Hz; apply Hi; now right).
      pose proof (Hi i (or_introl eq_refl)) as Hi'. destruct (sample_value parse psort m s l sample (seq_NoDup _ _) Hps Hparse Hsup Hlab Hparts Hex Hne R i k g ER Hk Hi') as (F & EF & EV). rewrite EF. cbn [List.map app]. rewrite EV, (HV i Hi'). reflexivity.
  Qed.
End Batch.
