(** Bootstrap on the sums per unit: the query and pandas on the table itself. *)
From Coq Require Import Reals List Bool String Arith ZArith Permutation Sorted Lia Lra.
From Verif Require Import M_Num M_Frame L_Frame M_Leaf M_Ops S_Ops L_OpsA M_Slices L_Slices M_Jackknife M_Bootstrap M_BootSql L_BootSql M_SqlGlobal S_SqlGlobal L_SqlGlobal M_SqlLeaf S_SqlLeaf L_SqlLeaf L_SqlLeaf2 M_SqlOps S_SqlOps L_SqlOps L_SqlOps7 L_SqlSort M_SqlJackknife S_SqlJackknife L_SqlJack1 L_SqlJack4 L_SqlJack5 L_SqlJack7 M_SqlJackFast S_SqlJackFast L_SqlSummary L_SqlSummary2 L_SqlLoo1 L_SqlLoo2 L_SqlLoo4 M_SqlBoot S_SqlBoot L_SqlBoot2 L_SqlBoot3 L_SqlBoot4 S_RowOrder L_RowOrder S_SqlBootPre M_SqlBootPre L_SqlBootPre1 L_SqlBootPre2.
Import ListNotations.
Open Scope string_scope.
Open Scope list_scope.

Lemma perm_map_in {A B} (f : A -> B) (l l' : list A) : (forall x y, In x l -> In y l' -> f x = f y -> x = y) -> Permutation (List.map f l) (List.map f l') -> Permutation l l'.
Proof.
  intros H HP. apply Permutation_map_inv in HP as (l3 & E & HP). assert (forall x y, In x l -> In y l3 -> f x = f y -> x = y) as H' by (intros x y Hx Hy; apply H; [exact Hx|now apply (Permutation_in _ (Permutation_sym HP))]).
  assert (l = l3) as ->; [|now apply Permutation_sym]. clear - E H'. revert l3 E H'. induction l as [|x l IH]; intros [|y l3] E H'; try discriminate; [reflexivity|]. injection E as E1 E2. f_equal; [apply H'; [now left|now left|exact E1]|]. apply IH; [exact E2|]. intros a b Ha Hb. apply H'; now right.
Qed.

Section Main.
  Variables (parse : string -> cond) (srt : list okey -> list env -> list env) (psort : cum_how -> bool -> nat -> rframe -> rframe).
  Variables (rand : nat -> nat -> R) (order : nat -> stable -> stable) (pre : leaf -> list string -> string).
  Variables (where_ : list string) (u : string) (N : nat) (m : otree) (s : list string) (t0 : stable).
  Hypothesis Hdb : db_sorts srt.
  Hypothesis Hps : pandas_sorts psort.
  Hypothesis Hparse : forall f, ~ In resample_idx (cond_labels (parse f)).
  Hypothesis Hsup : supported_tree (s ++ [resample_idx]) m.
  Hypothesis Hse : ~ In (boot_se_name (value_name m)) (s ++ extra_idx m).
  Hypothesis Hwhere : forall f r, In f where_ -> In r t0 -> same_verdict (parse f) r.
  Notation t := (filter (spass parse where_) t0).
  Notation U := ((s ++ extra_split m) ++ [u]).
  Notation D := (preagg parse pre (tree_leaves [] m) U t).
  Hypothesis Hunit : forall r, In r t -> slab r u <> None.
  Hypothesis HN : (1 <= N)%nat.
  Hypothesis Hne : t <> [].
  Hypothesis Horder : forall i, Permutation (order i D) D.
  Hypothesis Hkind : sums_only m.
  Hypothesis Hpre : own_columns pre m.
  Hypothesis Hpoint : child_fits parse psort m s t.
  Notation unit' := (boot_unit u m).
  Notation sample i := (boot_sample s unit' rand i (order i D)).
  Notation v := (value_name m).
  Notation idx := (s ++ extra_idx m).

  Lemma labels r c : In r t -> In c U -> slab r c <> None.
  Proof. exact (all_labels parse psort where_ u m s t0 Hunit Hpoint r c). Qed.
  Lemma D_rows : NoDup (List.map (srow_key U) D) /\ (forall r, In r t -> exists g, In g D /\ srow_key U g = srow_key U r) /\ (forall g, In g D -> exists r, In r t /\ srow_key U g = srow_key U r).
  Proof. exact (D_fine parse pre s (extra_split m) u t (tree_leaves [] m) Hne). Qed.
  Lemma D_labels g c : In g D -> In c U -> slab g c <> None.
  Proof. intros Hg Hc. destruct D_rows as (_ & _ & H). destruct (H g Hg) as (r & Hr & E). rewrite key_agree in E. rewrite (E c Hc). now apply labels. Qed.
  Lemma su_in c : In c (s ++ [u]) -> In c U.
  Proof. intros H. apply in_app_or in H as [H|H]; apply in_or_app; [left; apply in_or_app; now left|now right]. Qed.
  Lemma D_units1 r : In r t -> exists g, In g D /\ srow_key (s ++ [u]) g = srow_key (s ++ [u]) r.
  Proof. intros Hr. destruct D_rows as (_ & H & _). destruct (H r Hr) as (g & Hg & E). exists g. split; [exact Hg|]. rewrite key_agree in *. intros c Hc. apply E. now apply su_in. Qed.
  Lemma D_units2 g : In g D -> exists r, In r t /\ srow_key (s ++ [u]) g = srow_key (s ++ [u]) r.
  Proof. intros Hg. destruct D_rows as (_ & _ & H). destruct (H g Hg) as (r & Hr & E). exists r. split; [exact Hr|]. rewrite key_agree in *. intros c Hc. apply E. now apply su_in. Qed.
  Lemma kinds l fs : In (l, fs) (tree_leaves [] m) -> sum_or_count_leaf l.
  Proof. apply Hkind. Qed.
  Lemma D_inj x y : In x D -> In y D -> pandas_row x = pandas_row y -> x = y.
  Proof.
    intros Hx Hy E. destruct D_rows as (Hn & _ & _). apply (f_equal (fun r => srow_key U (SRow (lab r) (fun _ => None)))) in E.
    change (srow_key U x = srow_key U y) in E. clear - Hn Hx Hy E. induction D as [|g D0 IH]; [destruct Hx|]. cbn [List.map] in Hn. inversion Hn as [|? ? Hg Hn']; subst.
    destruct Hx as [->|Hx], Hy as [->|Hy]; [reflexivity| | |auto].
    - exfalso. apply Hg. rewrite E. now apply in_map.
    - exfalso. apply Hg. rewrite <- E. now apply in_map.
  Qed.
  Lemma unit_label : forall u0 r, unit' = Some u0 -> In r D -> slab r u0 <> None.
  Proof. intros u0 r E Hr. assert (u0 = u) as -> by (clear - E; unfold boot_unit in E; destruct (extra_split m); congruence). apply D_labels; [exact Hr|]. apply in_or_app. right. now left. Qed.
  Lemma s_label r c : In r D -> In c s -> slab r c <> None.
  Proof. intros Hr Hc. apply D_labels; [exact Hr|]. apply su_in, in_or_app. now left. Qed.

  Section Sampled.
    Variables (draws' draws : nat -> list (list nat)).
    Notation C i := (sample_groups (unit_groups s u (pandas_table t)) (draws i)).
    Hypothesis Hd' : forall i, (1 <= i <= N)%nat -> possible_draw (draw_sizes s unit' (pandas_table D)) (draws' i).
    Hypothesis HS : forall i, (1 <= i <= N)%nat -> Permutation (pandas_table (sample i)) (boot_psample s unit' (pandas_table D) (draws' i)).
    Hypothesis HC : forall i, (1 <= i <= N)%nat -> boot_psample s unit' (pandas_table D) (draws' i) = pandas_table (rows_of s u (C i) D).
    Hypothesis Hparts : forall i k, (1 <= i <= N)%nat -> Permutation (sample i) (rows_of s u (C i) D) -> rows_in s k (rows_of s u (C i) t) <> [] ->
      child_fits parse psort m [] (rows_in s k (rows_of s u (C i) t)) /\ every_leaf_has_rows parse m (rows_in s k (rows_of s u (C i) t)).
    Lemma C_len i : Forall (fun c => List.length c = List.length (s ++ [u])) (C i).
    Proof. apply Forall_forall. intros c Hc. apply groups_in in Hc. exact (key_len s u t c Hc). Qed.
    Lemma sampled i : (1 <= i <= N)%nat -> Permutation (sample i) (rows_of s u (C i) D).
    Proof.
      intros Hi. apply (perm_map_in pandas_row).
      - intros x y Hx Hy. apply D_inj; [exact (sample_incl s unit' i D (order i D) (Horder i) rand x Hx)|]. now apply rows_of_in in Hy.
      - pose proof (HS i Hi) as H. rewrite (HC i Hi) in H. exact H.
    Qed.
    Lemma raw_ne i : (1 <= i <= N)%nat -> rows_of s u (C i) t <> [].
    Proof.
      intros Hi E. assert (sample i <> []) as Hn.
      { intros E'. pose proof (HS i Hi) as H. cbn beta in E', H. rewrite E' in H. apply Permutation_nil in H. revert H. apply draw_nonempty; [| | |now apply Hd'].
        - unfold pandas_table. intros E0. apply map_eq_nil in E0. now apply (grouped_ne U _ t Hne) in E0.
        - intros r c Hr. apply in_map_iff in Hr as (r' & <- & Hr). now apply s_label.
        - intros u0 r E0 Hr. apply in_map_iff in Hr as (r' & <- & Hr). now apply unit_label. }
      pose proof (sampled i Hi) as HP. destruct (sample i) as [|g T] eqn:Eg; [congruence|]. assert (In g (rows_of s u (C i) D)) as Hg by (apply (Permutation_in _ HP); now left).
      apply rows_of_in in Hg as (Hg & c & Hc & Ec). destruct (D_units2 g Hg) as (r & Hr & Er). assert (In r (rows_of s u (C i) t)) as Hi'; [|rewrite E in Hi'; destruct Hi']. apply rows_of_in. split; [exact Hr|]. exists c. split; [exact Hc|congruence].
    Qed.
    Lemma sum_drawn C0 T' by_ : Forall (fun c => List.length c = List.length (s ++ [u])) C0 -> Permutation T' (rows_of s u C0 D) -> (forall x, In x by_ -> In x (s ++ extra_split m)) ->
      summary parse pre by_ (tree_leaves [] m) (rows_of s u C0 t) T'.
    Proof. exact (drawn_summary parse pre s (extra_split m) u t (tree_leaves [] m) Hne labels kinds Hpre C0 T' by_). Qed.
    Lemma raw_labels i r c : In r (rows_of s u (C i) t) -> In c s -> slab r c <> None.
    Proof. intros Hr Hc. apply rows_of_in in Hr as (Hr & _). apply labels; [exact Hr|]. apply su_in, in_or_app. now left. Qed.
    Lemma replicate i : (1 <= i <= N)%nat ->
      op_compute parse psort (push_tree pre [] m) s (boot_psample s unit' (pandas_table D) (draws' i)) = op_compute parse psort m s (boot_psample s (Some u) (pandas_table t) (draws i)).
    Proof.
      intros Hi. rewrite (HC i Hi), units_of.
      destruct (child_push parse psort pre m s (rows_of s u (C i) t) (rows_of s u (C i) D)) as [E _]; [now apply raw_ne| |exact kinds| |exact E].
      - apply (fits_whole parse psort m s (rows_of s u (C i) t)); [now apply raw_ne|exact (sup_s m s Hsup)|apply raw_labels|]. intros k Hk. apply (Hparts i k Hi); [now apply sampled|exact Hk].
      - intros by' Hb. apply sum_drawn; [apply C_len|apply Permutation_refl|exact Hb].
    Qed.
    Lemma part_fits i k : (1 <= i <= N)%nat -> rows_in s k (sample i) <> [] ->
      child_fits parse psort (push_tree pre [] m) [] (rows_in s k (sample i)) /\ every_leaf_has_rows parse (push_tree pre [] m) (rows_in s k (sample i)).
    Proof.
      intros Hi Hk. split; [|now apply push_has_rows]. pose proof (sampled i Hi) as HP.
      assert (Permutation (rows_in s k (sample i)) (rows_of s u (filter (fun c => key_eqb (firstn (List.length s) c) k) (C i)) D)) as HPk. { rewrite <- rows_in_rows_of by apply C_len. now apply L_SqlOps.filter_perm. }
      assert (rows_in s k (rows_of s u (C i) t) <> []) as Hr.
      { rewrite rows_in_rows_of by apply C_len. destruct (rows_in s k (sample i)) as [|g T] eqn:Eg; [congruence|]. assert (In g (rows_of s u (filter (fun c => key_eqb (firstn (List.length s) c) k) (C i)) D)) as Hg by (apply (Permutation_in _ HPk); now left).
        apply rows_of_in in Hg as (Hg & c & Hc & Ec). destruct (D_units2 g Hg) as (r & Hr & Er). intros E. assert (In r (rows_of s u (filter (fun c => key_eqb (firstn (List.length s) c) k) (C i)) t)) as Hi'; [|rewrite E in Hi'; destruct Hi'].
        apply rows_of_in. split; [exact Hr|]. exists c. split; [exact Hc|congruence]. }
      destruct (Hparts i k Hi HP Hr) as ([Hf Ht] & _).
      destruct (child_push parse psort pre m [] (rows_in s k (rows_of s u (C i) t)) (rows_in s k (sample i)) Hr Hf kinds) as [_ H]; [|exact (H Ht)].
      intros by' Hb. rewrite rows_in_rows_of by apply C_len. apply sum_drawn; [|exact HPk|intros x Hx; apply in_or_app; right; now apply Hb].
      apply Forall_forall. intros c Hc. apply filter_In in Hc as [Hc _]. pose proof (C_len i) as HL. rewrite Forall_forall in HL. now apply HL.
    Qed.
    Theorem same_pre : exists F, bootstrap_pandas parse psort draws where_ (Some u) N m s (pandas_table t0) = Some F /\
      jk_same_rows (boot_shown idx v (bootstrap_sql_preagg parse srt rand order pre where_ u N m s t0)) F /\
      (~ In (dof_name v) idx -> forall ppf confidence, jk_same_bounds ppf confidence (boot_bounds ppf confidence idx v (bootstrap_sql_preagg parse srt rand order pre where_ u N m s t0)) F).
    Proof.
      destruct Hpoint as [Hpf Hpt]. pose proof (spass_nil parse D) as ED.
      destruct (child_push parse psort pre m s t D Hne Hpf kinds) as [EP HP].
      { intros by' Hb. exact (D_summary parse pre s (extra_split m) u t (tree_leaves [] m) Hne labels kinds Hpre by' Hb). }
      destruct (same_boot parse srt psort rand order draws' [] unit' N (push_tree pre [] m) s D) as (F & EF & HF); auto.
      - now apply push_supported.
      - now rewrite push_value, push_index.
      - intros f r [].
      - lia.
      - intros i Hi. rewrite ED. intros E. apply (raw_ne i Hi). pose proof (sampled i Hi) as H. cbn beta in H. rewrite E in H. apply Permutation_nil in H.
        destruct (rows_of s u (C i) t) as [|r T] eqn:Er; [reflexivity|]. exfalso. assert (In r (rows_of s u (C i) t)) as Hr by (rewrite Er; now left). apply rows_of_in in Hr as (Hr & c & Hc & Ec).
        destruct (D_units1 r Hr) as (g & Hg & Eg). assert (In g (rows_of s u (C i) D)) as Hi'; [|rewrite H in Hi'; destruct Hi']. apply rows_of_in. split; [exact Hg|]. exists c. split; [exact Hc|congruence].
      - intros i. now rewrite ED.
      - rewrite ED. now apply HP.
      - intros i k Hi. rewrite ED. now apply part_fits.
      - intros i Hi. rewrite ED. now apply HS.
      - exists F. split; [|rewrite push_value, push_index in HF; exact HF]. rewrite <- EF. unfold bootstrap_pandas. rewrite (where_pandas parse where_ t0 Hwhere), no_filters. rewrite EP.
        assert (boot_replicates parse psort (push_tree pre [] m) s (List.map (fun i => boot_psample s unit' (pandas_table D) (draws' i)) (seq 1 N)) = boot_replicates parse psort m s (List.map (fun i => boot_psample s (Some u) (pandas_table t) (draws i)) (seq 1 N))) as ->; [|reflexivity].
        assert (forall l', incl l' (seq 1 N) -> boot_replicates parse psort (push_tree pre [] m) s (List.map (fun i => boot_psample s unit' (pandas_table D) (draws' i)) l') = boot_replicates parse psort m s (List.map (fun i => boot_psample s (Some u) (pandas_table t) (draws i)) l')) as H; [|apply H, incl_refl].
        induction l' as [|i l' IH]; intros Hi; [reflexivity|]. unfold boot_replicates in *. cbn [List.map flat_map]. rewrite IH by (intros z Hz; apply Hi; now right). f_equal.
        rewrite replicate; [reflexivity|]. assert (In i (seq 1 N)) as H by (apply Hi; now left). apply in_seq in H. lia.
    Qed.
  End Sampled.
End Main.
