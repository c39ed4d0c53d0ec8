(** Lemmas for C71: all batches. *)
From Coq Require Import Reals List Bool String Arith ZArith Permutation Lia.
From Verif Require Import M_Num M_Frame L_Frame M_Leaf M_Ops L_OpsA L_OpsB L_OpsC M_Slices S_Slices L_Slices M_Jackknife S_Jackknife L_Jackknife2 L_Jackknife3 M_BootCache L_BootCache M_SqlGlobal S_SqlGlobal M_SqlLeaf S_SqlLeaf L_SqlLeaf L_SqlLeaf2 M_SqlOps S_SqlOps L_SqlOps L_SqlOps7 L_SqlSort L_SqlScope L_SqlJack2 L_SqlJack3 M_SqlJackknife S_SqlJackknife L_SqlJack1 L_SqlJack4 L_SqlJack5 L_SqlJack6 L_SqlJack7 M_SqlMixed S_SqlMixed L_SqlMixed M_SqlMixedJack L_SqlMixedJack1 L_SqlMixedJack3 S_RowOrder L_RowOrder M_SqlBoot S_SqlBoot L_SqlBoot1 L_SqlBoot3 L_SqlBoot4 M_SqlMixedBoot S_SqlMixedBoot L_SqlMixedBoot1.
Import ListNotations.
Open Scope string_scope.
Open Scope list_scope.

(** ** Which resample is where *)
Lemma place_in b k i : b <> O -> (1 <= i <= b)%nat -> place b (k * b + i) = (k, i).
Proof.
  intros Hb Hi. unfold place. replace (k * b + i - 1)%nat with ((i - 1) + k * b)%nat by lia.
  rewrite Nat.div_add, Nat.mod_add by assumption. rewrite Nat.div_small, Nat.mod_small by lia. f_equal; lia.
Qed.
Lemma run_of b k size : b <> O -> (size <= b)%nat -> List.map (fun i => (k, i)) (seq 1 size) = List.map (place b) (seq (k * b + 1) size).
Proof.
  intros Hb Hs. rewrite <- (Nat.add_comm 1 (k * b)), <- (Nat.add_0_r 1) at 1.
  assert (forall a len, (a + len <= b)%nat -> List.map (fun i => (k, i)) (seq (1 + a) len) = List.map (place b) (seq (1 + k * b + a) len)) as H.
  { intros a len. revert a. induction len as [|len IH]; intros a Ha; [reflexivity|]. cbn [seq List.map]. f_equal.
    - replace (1 + k * b + a)%nat with (k * b + (1 + a))%nat by lia. rewrite place_in by lia. reflexivity.
    - specialize (IH (S a)). replace (S (1 + a)) with (1 + S a)%nat by lia. replace (S (1 + k * b + a)) with (1 + k * b + S a)%nat by lia. apply IH. lia. }
  specialize (H 0%nat size). rewrite !Nat.add_0_r in H. apply H. lia.
Qed.
Lemma batch_pairs n b : b <> O -> batch_results pair n b = List.map (place b) (seq 1 n).
Proof.
  intros Hb. unfold batch_results, batches.
  set (f := fun bs : nat * nat => List.map (pair (fst bs)) (seq 1 (snd bs))).
  assert (forall q rest s, (rest <= b)%nat -> List.concat (List.map f (combine (seq s (List.length (repeat b q ++ (if Nat.eqb rest 0 then [] else [rest])))) (repeat b q ++ (if Nat.eqb rest 0 then [] else [rest])))) = List.map (place b) (seq (s * b + 1) (q * b + rest))) as H.
  { induction q as [|q IH]; intros rest s Hr.
    - cbn [repeat app Nat.mul Nat.add]. destruct (Nat.eqb_spec rest 0) as [->|Hn]; [reflexivity|]. cbn [List.length seq combine List.map List.concat]. rewrite app_nil_r. unfold f. cbn [fst snd]. now apply run_of.
    - cbn [repeat app List.length seq combine List.map List.concat]. rewrite IH by assumption. replace (f (s, b)) with (List.map (place b) (seq (s * b + 1) b)) by (symmetry; apply run_of; auto). rewrite <- map_app. replace (S s * b + 1)%nat with (s * b + 1 + b)%nat by (cbn; lia). rewrite <- seq_app. f_equal. f_equal. cbn [Nat.mul]. lia. }
  specialize (H (n / b) (n mod b) 0%nat). cbn [Nat.mul Nat.add] in H. rewrite H; [|apply Nat.lt_le_incl, Nat.mod_upper_bound; assumption].
  f_equal. f_equal. rewrite Nat.mul_comm. symmetry. now apply Nat.div_mod.
Qed.

Section Main.
  Variables (parse : string -> cond) (dbo : query -> list (skey * option R) -> list (skey * option R)) (psort : cum_how -> bool -> nat -> rframe -> rframe).
  Variables (rand : nat -> leaf_query -> nat -> nat -> R) (order : nat -> leaf_query -> nat -> stable -> stable).
  Variables (rand0 : nat -> nat -> nat -> R) (order0 : nat -> nat -> stable -> stable) (draws : nat -> list (list nat)).
  Variables (where_ : list string) (unit : option string) (N batch_size : nat) (m : otree) (s : list string) (t0 : stable).
  Hypothesis Hdb : some_order dbo.
  Hypothesis Hps : pandas_sorts psort.
  Hypothesis Hparse : forall f, ~ In resample_idx (cond_labels (parse f)).
  Hypothesis Hsup : supported_tree (s ++ [resample_idx]) m.
  Hypothesis Hwhere : forall f r, In f where_ -> In r t0 -> same_verdict (parse f) r.
  Notation t := (filter (spass parse where_) t0).
  Notation b := (actual_size batch_size).
  Notation n := (List.length s).
  Hypothesis Hsame : forall k x, In x (tree_leaves m [] (resample_idx :: s)) -> rand k x = rand0 k /\ order k x = order0 k.
  Notation at_ := (fun q : nat * nat => boot_sample s unit (rand0 (fst q)) (snd q) (order0 (fst q) (snd q) t)).
  Notation sample := (fun j => at_ (place b j)).
  Hypothesis HN : N <> O.
  Hypothesis Hne : forall j, (1 <= j <= N)%nat -> sample j <> [].
  Hypothesis Horder : forall k i, Permutation (order0 k i t) t.
  Hypothesis Hpoint : child_fits parse psort m s t.
  Hypothesis Hpmix : mixed_fits parse m [] s t.
  Hypothesis Hfit : forall j k, (1 <= j <= N)%nat -> rows_in s k (sample j) <> [] ->
    child_fits parse psort m [] (rows_in s k (sample j)) /\ every_leaf_has_rows parse m (rows_in s k (sample j)) /\ mixed_fits parse m [] [] (rows_in s k (sample j)).
  Hypothesis Hdraws : forall j, (1 <= j <= N)%nat -> Permutation (pandas_table (sample j)) (boot_psample s unit (pandas_table t) (draws j)).
  Notation sizes := (batches N b).
  Notation runs := (combine (seq 0 (List.length sizes)) sizes).

  Lemma b_pos : b <> O. Proof. unfold actual_size. destruct batch_size; discriminate. Qed.
  (** the resamples of batch [k] *)
  Lemma run_in k size i : In (k, size) runs -> In i (seq 1 size) -> exists j, (1 <= j <= N)%nat /\ place b j = (k, i).
  Proof.
    intros Hk Hi. assert (In (k, i) (batch_results pair N b)) as H.
    { unfold batch_results. apply in_concat. exists (List.map (pair k) (seq 1 size)). split; [|now apply in_map]. apply in_map_iff. exists (k, size). auto. }
    rewrite (batch_pairs N b b_pos) in H. apply in_map_iff in H as (j & E & Hj). apply in_seq in Hj. exists j. split; [lia|exact E].
  Qed.
  Lemma free : order_free m.
  Proof.
    apply (tree_free [] m s [] []). intros b0 ab lc by' Hb lf fs Hl. destruct Hpoint as [Hf _]. destruct (Hf b0 ab lc by' Hb) as (H1 & _). now apply (H1 lf fs Hl).
  Qed.
  Lemma batch_runs k size : In (k, size) runs -> exists cols, boot_batch parse dbo psort rand order unit m s t k size = Some cols /\
    forall K g, List.length K = n -> present (List.map (lookup (K ++ g)) cols) =
      present (direct_row (boot_replicates parse psort m s (List.map (fun i => pandas_table (at_ (k, i))) (seq 1 size))) (K ++ g)).
  Proof.
    intros Hk. unfold boot_batch.
    rewrite (queries_same parse dbo psort _ (boot_table s unit (rand0 k) (order0 k) size t)) by (intros x Hx; destruct (Hsame k x Hx) as [-> ->]; reflexivity). rewrite sub_nil.
    change (boot_table s unit (rand0 k) (order0 k) size t) with (tagged (seq 1 size) (fun i => at_ (k, i))).
    apply batch_columns; auto.
    - assert (In size sizes) as Hs by (apply in_combine_r in Hk; exact Hk). apply batches_small in Hs; [lia|exact b_pos].
    - intros i r c Hi Hr Hc. destruct (run_in k size i Hk Hi) as (j & Hj & E). apply (sample_incl s unit i t (order0 k i t) (Horder k i)) in Hr. exact (split_labels parse psort where_ m s t0 Hpoint r c Hr Hc).
    - intros i K Hi Hn. destruct (run_in k size i Hk Hi) as (j & Hj & E). pose proof (Hfit j K Hj) as H. cbn beta in H. rewrite E in H. now apply H.
    - intros i Hi. destruct (run_in k size i Hk Hi) as (j & Hj & E). pose proof (Hne j Hj) as H. cbn beta in H. now rewrite E in H.
  Qed.
  Lemma reps_app x y : boot_replicates parse psort m s (x ++ y) = boot_replicates parse psort m s x ++ boot_replicates parse psort m s y.
  Proof. unfold boot_replicates. apply flat_map_app. Qed.
  Lemma all_runs l : (forall ks, In ks l -> In ks runs) -> exists cols, all_some (List.map (fun ks => boot_batch parse dbo psort rand order unit m s t (fst ks) (snd ks)) l) = Some cols /\
    forall K g, List.length K = n -> present (List.map (lookup (K ++ g)) (List.concat cols)) =
      present (direct_row (boot_replicates parse psort m s (List.map (fun q => pandas_table (at_ q)) (List.concat (List.map (fun ks => List.map (pair (fst ks)) (seq 1 (snd ks))) l)))) (K ++ g)).
  Proof.
    induction l as [|[k size] l IH]; intros Hl; [exists []; split; [reflexivity|intros; reflexivity]|].
    destruct (batch_runs k size (Hl _ (or_introl eq_refl))) as (c & Ec & Hc). destruct IH as (cols & Ecs & Hcs); [intros; apply Hl; now right|].
    exists (c :: cols). split; [cbn [List.map all_some fst snd]; rewrite Ec, Ecs; reflexivity|].
    intros K g HK. cbn [List.map List.concat fst snd]. rewrite map_app, map_app, reps_app. unfold direct_row in *. rewrite map_app, !present_app, Hcs, Hc by assumption. now rewrite map_map.
  Qed.
  Lemma same_replicates : boot_replicates parse psort m s (List.map (fun j => boot_psample s unit (pandas_table t) (draws j)) (seq 1 N)) =
    boot_replicates parse psort m s (List.map (fun j => pandas_table (sample j)) (seq 1 N)).
  Proof.
    assert (forall l', incl l' (seq 1 N) -> boot_replicates parse psort m s (List.map (fun i => boot_psample s unit (pandas_table t) (draws i)) l') = boot_replicates parse psort m s (List.map (fun i => pandas_table (sample i)) l')) as H; [|apply H, incl_refl].
    induction l' as [|i l' IH]; intros Hi; [reflexivity|]. unfold boot_replicates in *. cbn [List.map flat_map]. rewrite IH by (intros z Hz; apply Hi; now right). f_equal.
    assert ((1 <= i <= N)%nat) as Hi' by (pose proof (Hi i (or_introl eq_refl)) as H; apply in_seq in H; lia).
    rewrite (op_perm parse psort m s _ _ free (Hdraws i Hi')). reflexivity.
  Qed.
  Theorem same_mixed : bootstrap_mixed parse dbo psort rand order unit m s where_ batch_size N t0 = bootstrap_pandas parse psort draws where_ unit N m s (pandas_table t0).
  Proof.
    unfold bootstrap_mixed, bootstrap_pandas. cbv zeta. change (match batch_size with 0 => 1000%nat | S _ => batch_size end) with b.
    rewrite (where_pandas parse where_ t0 Hwhere), same_replicates. unfold sub_table.
    destruct (all_runs runs (fun _ H => H)) as (cols & Ec & Hc).
    pose proof (tree_equal parse dbo psort Hdb m [] s t Hpmix) as EP. rewrite !sub_nil in EP. rewrite EP.
    change (List.concat (List.map (fun ks : nat * nat => List.map (pair (fst ks)) (seq 1 (snd ks))) runs)) with (batch_results pair N b) in Hc.
    rewrite (batch_pairs N b b_pos), map_map in Hc.
    assert (exists z zs, sizes = z :: zs) as (z & zs & Es).
    { pose proof (batches_sum N b b_pos) as E. destruct sizes; [cbn in E; congruence|eauto]. }
    rewrite Es. pose proof Ec as Ec'. rewrite Es in Ec'. rewrite Ec'.
    set (reps := boot_replicates parse psort m s (List.map (fun j => pandas_table (sample j)) (seq 1 N))) in *.
    assert (exists r0 rs, reps = r0 :: rs) as (r0 & rs & Er).
    { assert (In (0%nat, z) runs) as Hr by (rewrite Es; now left). assert (z <> O) as Hz by (assert (In z sizes) as Hz by (rewrite Es; now left); apply batches_small in Hz; [lia|exact b_pos]).
      assert (place b 1 = (0, 1)%nat) as E1 by (pose proof (place_in b 0 1 b_pos) as E; cbn [Nat.mul Nat.add] in E; apply E; pose proof b_pos; lia).
      pose proof (Hne 1%nat) as Hn1. cbn beta in Hn1. rewrite E1 in Hn1. assert ((1 <= 1 <= N)%nat) as H11 by lia. specialize (Hn1 H11).
      assert (forall r c, In r (at_ (0, 1)%nat) -> In c s -> slab r c <> None) as Hlab.
      { intros r c Hr' Hc'. apply (sample_incl s unit 1%nat t (order0 0%nat 1%nat t) (Horder _ _)) in Hr'. exact (split_labels parse psort where_ m s t0 Hpoint r c Hr' Hc'). }
      assert (forall i k, In i [1%nat] -> rows_in s k (at_ (0%nat, i)) <> [] -> child_fits parse psort m [] (rows_in s k (at_ (0%nat, i))) /\ every_leaf_has_rows parse m (rows_in s k (at_ (0%nat, i)))) as Hpa.
      { intros i k [<-|[]] Hn. pose proof (Hfit 1%nat k H11) as H. cbn beta in H. rewrite E1 in H. destruct (H Hn) as (A & B & _). auto. }
      assert (NoDup [1%nat]) as Hnd by (repeat constructor; intros []).
      assert (forall i r c, In i [1%nat] -> In r (at_ (0%nat, i)) -> In c s -> slab r c <> None) as Hl by (intros i r c [<-|[]]; apply Hlab).
      assert (forall i, In i [1%nat] -> at_ (0%nat, i) <> []) as Hn1' by (intros i [<-|[]]; exact Hn1).
      assert (exists i k, In i [1%nat] /\ rows_in s k (at_ (0%nat, i)) <> []) as Hx.
      { destruct (sample_key s [1%nat] (fun i => at_ (0%nat, i)) Hl Hn1' 1%nat (or_introl eq_refl)) as [k Hk]. exists 1%nat, k. split; [now left|exact Hk]. }
      destruct (tag_whole parse psort m s [1%nat] (fun i => at_ (0%nat, i)) Hnd Hps Hparse Hsup Hl Hpa Hx) as (R & ER & _).
      destruct (sample_value parse psort m s [1%nat] (fun i => at_ (0%nat, i)) Hnd Hps Hparse Hsup Hl Hpa Hx Hn1' R 1%nat (List.map (fun _ => "") s) [] ER) as (D & ED & _); [apply map_length|now left|].
      assert (In D reps) as Hi; [|destruct reps; [destruct Hi|eauto]]. unfold reps, boot_replicates. apply in_flat_map. exists (pandas_table (sample 1%nat)). split; [apply (in_map (fun j => pandas_table (sample j))); apply in_seq; lia|].
      cbn beta. rewrite E1. rewrite ED. now left. }
    rewrite Er. destruct (op_compute parse psort m s (pandas_table t)) as [P|] eqn:EPt; [|reflexivity]. rewrite <- Er. f_equal. apply map_ext_in. intros q Hq.
    pose proof (point_lengths parse psort where_ m s t0 Hps Hsup Hpoint P EPt q Hq) as Hlq.
    assert (List.length (firstn n (fst q)) = n) as Hk by (rewrite firstn_length; lia).
    pose proof (Hc (firstn n (fst q)) (skipn n (fst q)) Hk) as E. rewrite firstn_skipn in E.
    assert (Permutation (present (List.map (lookup (fst q)) (List.concat cols))) (present (direct_row reps (fst q)))) as HPm by (unfold reps; now rewrite E).
    f_equal; [f_equal; exact (stderr_present false _ _ HPm)|now apply dof_present].
  Qed.
End Main.
