(** A child computed on a table that has all resamples, each with its label. *)
From Coq Require Import Reals List Bool String Arith ZArith Permutation Sorted Lia Lra DecimalString DecimalNat FinFun.
From Verif Require Import M_Num M_Frame L_Frame M_Leaf M_Ops S_Ops L_OpsA L_OpsB L_OpsC M_Slices S_Slices L_Slices M_Jackknife S_Jackknife L_Jackknife L_Jackknife2 L_Jackknife3 M_SqlGlobal S_SqlGlobal L_SqlGlobal M_SqlLeaf S_SqlLeaf L_SqlLeaf L_SqlLeaf2 M_SqlOps S_SqlOps L_SqlOps L_SqlOps7 L_SqlSort L_SqlScope L_SqlJack2 L_SqlJack3 M_SqlJackknife S_SqlJackknife L_SqlJack1 L_SqlJack4 L_SqlJack5 L_SqlJack6 M_SqlBoot S_SqlBoot.
From Verif Require L_Bootstrap.
Import ListNotations.
Open Scope string_scope.
Open Scope list_scope.

Lemma tag_inj i j : tag i = tag j -> i = j.
Proof.
  unfold tag. intros H. apply (f_equal NilEmpty.uint_of_string) in H. rewrite !NilEmpty.usu in H. injection H as H.
  apply (f_equal Nat.of_uint) in H. now rewrite !Unsigned.of_to in H.
Qed.

Lemma group_app by_ K (a b : stable) : M_SqlLeaf.group by_ K (a ++ b) = M_SqlLeaf.group by_ K a ++ M_SqlLeaf.group by_ K b.
Proof. apply filter_app. Qed.

Section Tagged.
  Variables (parse : string -> cond) (psort : cum_how -> bool -> nat -> rframe -> rframe) (m : otree) (s : list string) (l : list nat) (sample : nat -> stable).
  Hypothesis Hnd : NoDup l.
  Hypothesis Hps : pandas_sorts psort.
  Hypothesis Hparse : forall f, ~ In resample_idx (cond_labels (parse f)).
  Hypothesis Hsup : supported_tree (s ++ [resample_idx]) m.
  Hypothesis Hlab : forall i r c, In i l -> In r (sample i) -> In c s -> slab r c <> None.
  Hypothesis Hparts : forall i k, In i l -> rows_in s k (sample i) <> [] ->
    child_fits parse psort m [] (rows_in s k (sample i)) /\ every_leaf_has_rows parse m (rows_in s k (sample i)).
  Hypothesis Hex : exists i k, In i l /\ rows_in s k (sample i) <> [].
  Definition tagged : stable := flat_map (fun i => List.map (relabel (Some (tag i))) (sample i)) l.
  Notation lo := (fun k i => rows_in s k (sample i)).
  Notation n := (List.length s).

  Lemma fresh : ~ In resample_idx s. Proof. exact (idx_fresh m s Hsup). Qed.
  Lemma rows_in_In k T r : In r (rows_in s k T) <-> In r T /\ srow_key s r = List.map Some k.
  Proof. unfold rows_in. rewrite filter_In. destruct (skey_dec _ _) as [E|E]; split; intros [H1 H2]; auto; try discriminate; contradiction. Qed.
  Lemma rows_in_group k T : rows_in s k T = M_SqlLeaf.group s (List.map Some k) T.
  Proof. reflexivity. Qed.
  Lemma lo_len i k : lo k i <> [] -> List.length k = n.
  Proof.
    cbn beta. intros H. destruct (rows_in s k (sample i)) as [|r T] eqn:E; [congruence|]. assert (In r (rows_in s k (sample i))) as Hi by (rewrite E; now left). apply rows_in_In in Hi as [_ Hi].
    apply (f_equal (@List.length _)) in Hi. unfold srow_key in Hi. now rewrite !map_length in Hi.
  Qed.
  Lemma tag_group i k : In i l -> M_SqlLeaf.group (s ++ [resample_idx]) (List.map Some (k ++ [tag i])) tagged = List.map (relabel (Some (tag i))) (lo k i).
  Proof.
    intros Hi. unfold tagged. clear Hparts Hex Hlab.
    assert (forall j, M_SqlLeaf.group (s ++ [resample_idx]) (List.map Some (k ++ [tag i])) (List.map (relabel (Some (tag j))) (sample j)) = if Nat.eq_dec j i then List.map (relabel (Some (tag i))) (lo k i) else []) as H.
    { intros j. unfold M_SqlLeaf.group, rows_in. rewrite filter_map_comm.
      assert (forall r, (if skey_dec (srow_key (s ++ [resample_idx]) (relabel (Some (tag j)) r)) (List.map Some (k ++ [tag i])) then true else false) =
                        (if skey_dec (srow_key s r) (List.map Some k) then true else false) && (if Nat.eq_dec j i then true else false)) as E.
      { intros r. rewrite (srow_key_idx s fresh), map_app. cbn [List.map]. destruct (skey_dec (_ ++ _) _) as [E|E], (skey_dec _ _) as [E1|E1], (Nat.eq_dec j i) as [E2|E2]; try reflexivity; exfalso.
        - apply app_inj_tail in E as [_ E]. injection E as E. apply E2. now apply tag_inj.
        - apply app_inj_tail in E as [E _]. now apply E1.
        - apply app_inj_tail in E as [E _]. now apply E1.
        - apply E. now rewrite E1, E2. }
      rewrite (filter_ext _ _ E). destruct (Nat.eq_dec j i) as [->|Hne].
      - f_equal. apply filter_ext. intros r. apply andb_true_r.
      - rewrite filter_none; [reflexivity|]. intros r _. apply andb_false_r. }
    revert Hnd Hi. induction l as [|j l' IH]; intros Hn Hi; [destruct Hi|]. inversion Hn as [|? ? Hj Hn']; subst. cbn [flat_map]. rewrite group_app.
    rewrite H. destruct (Nat.eq_dec j i) as [->|Hne].
    - match goal with |- _ ++ ?X = _ => assert (X = []) as -> end; [|apply app_nil_r]. clear IH Hi Hn Hn'. revert Hj. induction l' as [|j l'' IH]; intros Hj; [reflexivity|]. cbn [flat_map]. rewrite group_app.
      rewrite H. destruct (Nat.eq_dec j i) as [->|_]; [exfalso; apply Hj; now left|]. apply IH. intros Hi. apply Hj. now right.
    - destruct Hi as [->|Hi]; [congruence|]. exact (IH Hn' Hi).
  Qed.
  Lemma tag_row r' : In r' tagged -> exists i k r, r' = relabel (Some (tag i)) r /\ In i l /\ In r (lo k i).
  Proof.
    unfold tagged. intros H. apply in_flat_map in H as (i & Hi & H). apply in_map_iff in H as (r & <- & Hr). destruct (srow_key_labels s r) as [k Ek]; [intros c Hc; now apply (Hlab i r c)|]. exists i, k, r. split; [reflexivity|]. split; [exact Hi|]. now apply rows_in_In.
  Qed.
  Lemma tag_leaves b ab lc e' : In (b, ab, lc, e') (bottoms [] m [] [] []) ->
    forall lf fs, In (lf, fs) (leaves_with_filters ab b) -> supported lf /\ ~ In EmptyString fs.
  Proof.
    intros Hb lf fs Hl. destruct Hex as (i & k & Hi & Hne). destruct (Hparts i k Hi Hne) as ([Hf _] & _). destruct (Hf b ab lc e' Hb) as (H1 & _ & _). destruct (H1 lf fs Hl) as (A & B & _). auto.
  Qed.
  Lemma tag_avoids : tree_avoids [] m.
  Proof.
    apply (avoids_from [] m [] [] [] []); [exact (sup_idx m s Hsup)|]. intros b ab lc by' Hb. apply (leaves_ok_from b ab). intros lf fs Hl. now apply (tag_leaves b ab lc by' Hb lf fs).
  Qed.
  Lemma tag_len i k : lo k i <> [] -> List.length (k ++ [tag i]) = List.length (s ++ [resample_idx]).
  Proof. intros H. rewrite !app_length. f_equal. now apply (lo_len i). Qed.
  Lemma lo_ne i k r : In r (lo k i) -> lo k i <> [].
  Proof. cbn beta. intros H E. rewrite E in H. destruct H. Qed.
  Lemma tag_bottoms b ab lc by' : In (b, ab, lc, by') (bottoms [] m (s ++ [resample_idx]) [] []) -> leaf_fits parse [] b ab lc by' tagged.
  Proof.
    intros Hb. pose proof (bottoms_nodup _ _ _ _ _ _ _ _ _ Hsup Hb) as Hd. pose proof (bottoms_prefix [] m (s ++ [resample_idx]) [] [] [] b ab lc by') as E. rewrite app_nil_r in E. apply E in Hb as (e' & -> & Hb). clear E.
    assert (~ In resample_idx e') as He. { intros Hi. rewrite <- app_assoc in Hd. apply NoDup_remove_2 in Hd. apply Hd, in_or_app. now right. }
    pose proof (tag_leaves b ab lc e' Hb) as Hls. split; [|split].
    - intros lf fs Hl. destruct (Hls lf fs Hl) as [A B]. split; [exact A|]. split; [exact B|]. intros f r' Hf Hr. destruct (tag_row r' Hr) as (i & k & r & -> & Hi & Hr').
      apply verdict_R; [exact Hparse|]. destruct (Hparts i k Hi (lo_ne i k r Hr')) as ([Hfit _] & _). destruct (Hfit b ab lc e' Hb) as (H1 & _ & _). now apply (H1 lf fs Hl).
    - intros r' c Hr _ Hc. destruct (tag_row r' Hr) as (i & k & r & -> & Hi & Hr'). cbn. destruct (String.eqb_spec c resample_idx) as [_|Hne]; [discriminate|].
      apply in_app_or in Hc as [Hc|Hc]; [apply in_app_or in Hc as [Hc|[Hc|[]]]; [apply rows_in_In in Hr' as (Hr' & _); now apply (Hlab i)|congruence]|].
      destruct (Hparts i k Hi (lo_ne i k r Hr')) as ([Hfit _] & _). destruct (Hfit b ab lc e' Hb) as (_ & H2 & _). apply (H2 r c Hr'); auto.
    - intros K HK. destruct HK as [[E _]|(r' & Hr & _ & EK)]; [destruct s; discriminate|].
      destruct (tag_row r' Hr) as (i & k & r & -> & Hi & Hr'). pose proof Hr' as Hr''. apply rows_in_In in Hr'' as (Hrt & Ek). pose proof (lo_ne i k r Hr') as Hn0.
      rewrite srow_key_app, (srow_key_idx s fresh), Ek, (srow_key_relabel e' (Some (tag i)) r He) in EK.
      destruct (Hparts i k Hi Hn0) as ([Hfit _] & Hev). destruct (Hfit b ab lc e' Hb) as (_ & H2 & H3).
      destruct (srow_key_labels e' r) as [g Eg]; [intros c Hc; apply (H2 r c Hr'); auto|].
      assert (K = (k ++ [tag i]) ++ g) as ->. { apply some_inj. rewrite <- EK, Eg, !map_app. reflexivity. }
      assert (M_SqlLeaf.group ((s ++ [resample_idx]) ++ e') (List.map Some ((k ++ [tag i]) ++ g)) tagged = List.map (relabel (Some (tag i))) (M_SqlLeaf.group e' (List.map Some g) (lo k i))) as EG.
      { rewrite map_app, group_split by (rewrite map_length; now apply tag_len). rewrite (tag_group i k Hi). unfold M_SqlLeaf.group. rewrite filter_map_comm. f_equal. apply filter_ext. intros z. now rewrite srow_key_relabel. }
      assert (forall fs, used_rows parse ((s ++ [resample_idx]) ++ e') ((k ++ [tag i]) ++ g) fs tagged = List.map (relabel (Some (tag i))) (used_rows parse e' g fs (lo k i))) as EU.
      { intros fs. rewrite !used_group, EG, filter_map_comm. f_equal. apply filter_ext. intros z. now apply spass_G. }
      assert ((e' = [] /\ g = []) \/ (exists r, In r (lo k i) /\ spass parse [] r = true /\ srow_key e' r = List.map Some g)) as HK by (right; exists r; auto).
      specialize (H3 g HK) as (H3 & H4). split.
      + intros lf fs Hl. rewrite EU. destruct (H3 lf fs Hl) as [Hu' Hc]. split; [|now apply cov_R].
        right. intros E. apply map_eq_nil in E. destruct Hu' as [[-> ->]|Hu']; [|contradiction]. destruct (Hev b ab lc [] lf fs Hb Hl) as (z & Hz & Hp).
        cbn beta in Hz, E. assert (In z (used_rows parse [] [] fs (rows_in s k (sample i)))) as Hi'; [|rewrite E in Hi'; destruct Hi']. apply filter_In. split; [exact Hz|]. rewrite Hp. reflexivity.
      + rewrite spass_nil in *. rewrite EG. apply fits_R; assumption.
  Qed.

  (** ... and its result *)
  Lemma slice_rows_in k T : slice s k (pandas_table T) = pandas_table (rows_in s k T).
  Proof. apply slice_pandas. Qed.
  Lemma slice_tag i k : In i l -> slice (s ++ [resample_idx]) (k ++ [tag i]) (pandas_table tagged) = List.map (G (Some (tag i))) (pandas_table (lo k i)).
  Proof. intros H. rewrite slice_pandas, tag_group by assumption. apply pandas_relabels. Qed.
  Lemma slice_tag_inv K : slice (s ++ [resample_idx]) K (pandas_table tagged) <> [] -> exists i k, K = k ++ [tag i] /\ In i l /\ lo k i <> [].
  Proof.
    intros H. apply slice_nonempty in H as (r & Hr & Hk). unfold pandas_table in Hr. apply in_map_iff in Hr as (r' & <- & Hr). apply row_key_pandas in Hk.
    destruct (tag_row r' Hr) as (i & k & r & -> & Hi & Hr'). pose proof (lo_ne i k r Hr'). apply rows_in_In in Hr' as [_ E]. rewrite (srow_key_idx s fresh), E in Hk. change [Some (tag i)] with (List.map Some [tag i]) in Hk. rewrite <- map_app in Hk. apply some_inj in Hk. exists i, k. auto.
  Qed.
  Lemma slice_tag_ne i k : In i l -> lo k i <> [] -> slice (s ++ [resample_idx]) (k ++ [tag i]) (pandas_table tagged) <> [].
  Proof. intros Hi Hne. rewrite (slice_tag i k Hi). cbn beta in Hne. destruct (rows_in s k (sample i)); [congruence|discriminate]. Qed.
  Theorem tag_whole : exists R, op_compute parse psort m (s ++ [resample_idx]) (pandas_table tagged) = Some R /\
    (forall i k, In i l -> lo k i <> [] -> op_compute parse psort m [] (pandas_table (lo k i)) = Some (restrict (S n) (k ++ [tag i]) R)) /\
    (forall q, In q R -> exists i k g, fst q = k ++ tag i :: g /\ In i l /\ lo k i <> []) /\
    tree_fits parse psort m (s ++ [resample_idx]) (pandas_table tagged).
  Proof.
    destruct Hex as (i0 & k0 & Hi0 & Hne0).
    assert (parts parse psort m (s ++ [resample_idx]) [] (pandas_table tagged)) as HP.
    { intros K HK. destruct (slice_tag_inv K HK) as (i & k & -> & Hi & Hne). rewrite (slice_tag i k Hi). destruct (Hparts i k Hi Hne) as [H1 H2].
      exact (relabel_ok parse psort m s Hps Hparse Hsup (Some (tag i)) _ tag_avoids H1 H2). }
    assert (s ++ [resample_idx] <> []) as Hs by (destruct s; discriminate).
    pose proof (lift parse psort Hps m (s ++ [resample_idx]) [] (pandas_table tagged) Hs) as HL. rewrite app_nil_r in HL.
    destruct HL as (Hfit & R & ER & Hr & Hk); auto; [exists (k0 ++ [tag i0]); now apply slice_tag_ne|]. rewrite app_nil_r in Hfit, ER. rewrite app_length in Hr, Hk. cbn [List.length] in Hr, Hk. rewrite Nat.add_1_r in Hr, Hk.
    exists R. split; [exact ER|]. split; [|split; [|exact Hfit]].
    - intros i k Hi Hne. specialize (Hr (k ++ [tag i]) (slice_tag_ne i k Hi Hne)). rewrite (slice_tag i k Hi), op_compute_G in Hr by (auto using tag_avoids). exact Hr.
    - intros q Hq. specialize (Hk q Hq). destruct (slice_tag_inv _ Hk) as (i & k & E & Hi & Hne). exists i, k, (skipn (S n) (fst q)). split; [|auto]. rewrite <- (firstn_skipn (S n) (fst q)) at 1. rewrite E, <- app_assoc. reflexivity.
  Qed.
  Theorem tag_samples srt : db_sorts srt -> exists R, op_compute parse psort m (s ++ [resample_idx]) (pandas_table tagged) = Some R /\
    inv parse srt tagged (samples_sql m s) ((s ++ [resample_idx]) ++ extra_idx m) (value_name m) R.
  Proof.
    intros Hd. destruct tag_whole as (R & ER & _ & _ & Hfit).
    destruct (tree_step parse srt psort tagged Hd Hps [] m (s ++ [resample_idx]) [] []) as (F & EF & HF & _); auto; [exact tag_bottoms|apply placed_nil|now rewrite no_filters|].
    rewrite no_filters in EF. exists F. split; [exact EF|]. unfold samples_sql. change (resample_idx :: extra_idx m) with ([resample_idx] ++ extra_idx m). rewrite app_assoc. exact HF.
  Qed.

  (** ** The replicates of pandas *)
  Hypothesis Hne : forall i, In i l -> sample i <> [].
  Lemma sample_key i : In i l -> exists k, lo k i <> [].
  Proof.
    intros Hi. destruct (sample i) as [|r T] eqn:E; [destruct (Hne i Hi E)|]. destruct (srow_key_labels s r) as [k Ek]; [intros c Hc; apply (Hlab i r c Hi); [rewrite E; now left|exact Hc]|].
    exists k. cbn beta. rewrite E. intros E0. assert (In r (rows_in s k (r :: T))) as Hr; [apply rows_in_In; split; [now left|exact Ek]|]. rewrite E0 in Hr. destruct Hr.
  Qed.
  Lemma sample_value R i k g : op_compute parse psort m (s ++ [resample_idx]) (pandas_table tagged) = Some R -> List.length k = n -> In i l ->
    exists D, op_compute parse psort m s (pandas_table (sample i)) = Some D /\ lookup (k ++ g) D = lookup (k ++ tag i :: g) R.
  Proof.
    intros ER Hk Hi. destruct tag_whole as (R' & ER' & Hr & Hkeys & _). rewrite ER in ER'. injection ER' as <-.
    assert (lo k i = [] -> lookup (k ++ tag i :: g) R = NaN) as Hnone.
    { intros Hn. apply lookup_None. intros Hq. apply in_map_iff in Hq as ([q v] & E & Hq). cbn [fst] in E. subst q. destruct (Hkeys _ Hq) as (i' & k' & g' & E & Hi' & Hne'). cbn [fst] in E.
      pose proof (lo_len i' k' Hne') as Hl. destruct (app_len_inj k k' (tag i :: g) (tag i' :: g')) as [E1 E2]; [lia|exact E|]. injection E2 as E2 _. apply tag_inj in E2. subst. now apply Hne'. }
    assert (forall D, (restrict n k D = restrict (S n) (k ++ [tag i]) R) -> lookup (k ++ g) D = lookup (k ++ tag i :: g) R) as Heq.
    { intros D E. rewrite <- (lookup_restrict n k g D Hk), E, lookup_restrict by (rewrite app_length; cbn; lia). now rewrite <- app_assoc. }
    destruct (list_eq_dec string_dec s []) as [Es|Hs].
    - assert (k = []) as -> by (destruct k; [reflexivity|rewrite Es in Hk; discriminate]).
      assert (lo [] i = sample i) as EL. { cbn beta. unfold rows_in. rewrite Es. apply filter_all. intros r _. reflexivity. }
      assert (lo [] i <> []) as Hn by (rewrite EL; now apply Hne). pose proof (Hr i [] Hi Hn) as E. rewrite EL in E. replace (op_compute parse psort m s) with (op_compute parse psort m []) by (now rewrite Es). rewrite E. eexists. split; [reflexivity|]. apply Heq.
      assert (n = O) as En by (now rewrite Es). rewrite En. unfold restrict at 1. cbn [firstn skipn]. rewrite filter_all by reflexivity. rewrite <- map_id. apply map_ext. intros [q v]. reflexivity.
    - set (T := pandas_table (sample i)).
      assert (exists k', slice s k' T <> []) as He.
      { destruct (sample_key i Hi) as [k' Hk']. exists k'. unfold T. rewrite slice_rows_in. cbn beta in Hk'. destruct (rows_in s k' (sample i)); [congruence|discriminate]. }
      assert (parts parse psort m s [] T) as HP.
      { intros k' Hk'. unfold T in *. rewrite slice_rows_in in *. assert (rows_in s k' (sample i) <> []) as Hn by (intros E; rewrite E in Hk'; now apply Hk'). destruct (Hparts i k' Hi Hn) as [H1 H2].
        apply (part_ok parse psort m s Hps Hsup _ H1 H2). }
      pose proof (lift parse psort Hps m s [] T Hs He) as HL. rewrite app_nil_r in HL. destruct (HL (sup_s m s Hsup) HP) as (_ & D & ED & HD & HK). rewrite app_nil_r in ED. exists D. split; [exact ED|].
      destruct (rows_in s k (sample i)) as [|r0 rows] eqn:Esl.
      + rewrite Hnone by reflexivity. apply lookup_None. intros Hq. apply in_map_iff in Hq as ([q v] & E & Hq). cbn [fst] in E. subst q. apply HK in Hq. cbn [fst] in Hq. rewrite firstn_app_len in Hq by assumption. unfold T in Hq. rewrite slice_rows_in, Esl in Hq. now apply Hq.
      + apply Heq. assert (lo k i <> []) as Hn by (cbn beta; rewrite Esl; discriminate). assert (slice s k T <> []) as Hn' by (unfold T; rewrite slice_rows_in, Esl; discriminate).
        pose proof (HD k Hn') as E1. unfold T in E1. rewrite slice_rows_in in E1. rewrite (Hr i k Hi Hn) in E1. now injection E1.
  Qed.
  Theorem boot_agree R k g : op_compute parse psort m (s ++ [resample_idx]) (pandas_table tagged) = Some R -> NoDup (List.map fst R) -> List.length k = n ->
    Permutation (present (direct_row (boot_replicates parse psort m s (List.map (fun i => pandas_table (sample i)) l)) (k ++ g))) (present (List.map snd (filter (fun q => key_eqb (drop_at n (fst q)) (k ++ g)) R))).
  Proof.
    intros ER HN Hk. destruct tag_whole as (R' & ER' & Hr & Hkeys & _). rewrite ER in ER'. injection ER' as <-.
    set (V := fun x : option string => match x with Some y => lookup (k ++ y :: g) R | None => NaN end).
    set (lbls := List.map (fun i => Some (tag i)) l).
    assert (present (direct_row (boot_replicates parse psort m s (List.map (fun i => pandas_table (sample i)) l)) (k ++ g)) = present (List.map V lbls)) as ->.
    { unfold boot_replicates, direct_row, lbls. rewrite L_Bootstrap.flat_map_map.
      assert (forall l', incl l' l -> List.map (lookup (k ++ g)) (flat_map (fun i => match op_compute parse psort m s (pandas_table (sample i)) with Some r => [r] | None => [] end) l') = List.map V (List.map (fun i => Some (tag i)) l')) as H; [|now rewrite H by apply incl_refl].
      induction l' as [|i l' IH]; intros Hi; [reflexivity|]. cbn [flat_map List.map]. rewrite map_app, IH by (intros z Hz; apply Hi; now right).
      destruct (sample_value R i k g ER Hk (Hi i (or_introl eq_refl))) as (D & ED & EV). rewrite ED. cbn [List.map app V]. now rewrite EV. }
    set (sel := filter (fun q => key_eqb (drop_at n (fst q)) (k ++ g)) R).
    assert (forall q, In q sel -> exists y, fst q = k ++ y :: g /\ In (Some y) lbls) as Hsel.
    { intros q Hq. apply filter_In in Hq as [Hq E]. apply key_eqb_eq in E. destruct (Hkeys q Hq) as (i & k' & g' & Eq & Hi & Hn'). pose proof (lo_len i k' Hn') as Hl.
      rewrite Eq in E. unfold drop_at in E. rewrite firstn_app_len in E by lia. change (k' ++ tag i :: g') with (k' ++ [tag i] ++ g') in E. rewrite app_assoc, skipn_app_len in E by (rewrite app_length; cbn; lia).
      destruct (app_len_inj k' k g' g) as [-> ->]; [lia|exact E|]. exists (tag i). split; [exact Eq|]. unfold lbls. apply in_map_iff. eauto. }
    set (lbl := fun q : key * num => hd_error (skipn n (fst q))).
    assert (List.map snd sel = List.map V (List.map lbl sel)) as ->.
    { rewrite map_map. apply map_ext_in. intros q Hq. destruct (Hsel q Hq) as (y & Eq & _). unfold lbl. rewrite Eq, skipn_app_len by assumption. cbn [hd_error V]. symmetry. apply lookup_In; [exact HN|].
      apply filter_In in Hq as [Hq _]. rewrite <- Eq. now destruct q. }
    apply present_units.
    - unfold lbls. apply FinFun.Injective_map_NoDup; [|exact Hnd]. intros i j E. injection E as E. now apply tag_inj.
    - assert (NoDup (List.map fst sel)) as Hn1 by (apply NoDup_map_filter; exact HN).
      clear - Hn1 Hsel Hk. induction sel as [|q l' IH]; cbn [List.map] in *; [constructor|]. inversion Hn1 as [|? ? Hq Hn2]; subst. constructor; [|apply IH; auto; intros z Hz; apply Hsel; now right].
      intros Hi. apply in_map_iff in Hi as (q' & E & Hi). apply Hq. destruct (Hsel q (or_introl eq_refl)) as (y & Eq & _). destruct (Hsel q' (or_intror Hi)) as (y' & Eq' & _). unfold lbl in E. rewrite Eq, Eq', !skipn_app_len in E by assumption.
      cbn in E. injection E as ->. rewrite Eq, <- Eq'. now apply in_map.
    - intros x Hx. apply in_map_iff in Hx as (q & <- & Hq). destruct (Hsel q Hq) as (y & Eq & Hy). unfold lbl. now rewrite Eq, skipn_app_len by assumption.
    - intros x Hx Hn. unfold lbls in Hx. apply in_map_iff in Hx as (i & <- & Hi). cbn [V]. apply lookup_None. intros Hq. apply in_map_iff in Hq as ([q v] & E & Hq). cbn [fst] in E. subst q. apply Hn. apply in_map_iff. exists (k ++ tag i :: g, v). split.
      + unfold lbl. cbn [fst]. now rewrite skipn_app_len by assumption.
      + apply filter_In. split; [exact Hq|]. cbn [fst]. apply key_eqb_eq. unfold drop_at. rewrite firstn_app_len by assumption. f_equal. change (k ++ tag i :: g) with (k ++ [tag i] ++ g). rewrite app_assoc. apply skipn_app_len. rewrite app_length. cbn. lia.
  Qed.
End Tagged.
