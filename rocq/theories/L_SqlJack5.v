(** The child on the resampled table. *)
From Coq Require Import Reals List Bool String Arith ZArith Permutation Sorted Lia Lra.
From Verif Require Import M_Num M_Frame L_Frame M_Leaf M_Ops S_Ops L_OpsA L_OpsB L_OpsC M_Slices S_Slices L_Slices M_SqlGlobal S_SqlGlobal L_SqlGlobal M_SqlLeaf S_SqlLeaf L_SqlLeaf L_SqlLeaf2 M_SqlOps S_SqlOps L_SqlOps L_SqlOps7 L_SqlSort L_SqlScope L_SqlJack2 L_SqlJack3 M_SqlJackknife S_SqlJackknife L_SqlJack1 L_SqlJack4.
Import ListNotations.
Open Scope string_scope.
Open Scope list_scope.

Lemma bottoms_nodup wh m : forall by_ ab lc b fs l by', supported_tree by_ m -> In (b, fs, l, by') (bottoms wh m by_ ab lc) -> NoDup by'.
Proof.
  induction m as [m name|over ch IH w|over how asc ch IH w|p cond base incl ch IH w|d over ch IH w|op x IHa y IHb name w|op x ch IH name w|op ch IH x name w];
    intros by_ ab lc b fs l by' Hs H; cbn [bottoms supported_tree] in *.
  - destruct H as [H|[]]. injection H as _ _ _ <-. apply Hs.
  - destruct Hs as (_ & _ & _ & Hs). eapply IH; eauto.
  - destruct Hs as (_ & _ & _ & _ & _ & Hs). eapply IH; eauto.
  - destruct Hs as (_ & _ & _ & Hs). eapply IH; eauto.
  - destruct Hs as (_ & _ & _ & _ & Hs). eapply IH; eauto.
  - destruct Hs as (_ & Ha & Hb & _). apply in_app_or in H as [H|H]; eauto.
  - destruct Hs as (_ & Hs). eapply IH; eauto.
  - destruct Hs as (_ & Hs). eapply IH; eauto.
Qed.
Lemma group_split a b ka kb (T : stable) : List.length ka = List.length a ->
  M_SqlLeaf.group (a ++ b) (ka ++ kb) T = M_SqlLeaf.group b kb (M_SqlLeaf.group a ka T).
Proof.
  intros Hl. unfold M_SqlLeaf.group. rewrite L_SqlLeaf2.filter_filter. apply filter_ext. intros r. rewrite srow_key_app.
  assert (List.length (srow_key a r) = List.length ka) as Hr by (unfold srow_key; now rewrite map_length).
  destruct (skey_dec (srow_key a r ++ srow_key b r) (ka ++ kb)) as [E|E], (skey_dec (srow_key a r) ka) as [E1|E1], (skey_dec (srow_key b r) kb) as [E2|E2]; cbn [andb]; try reflexivity; exfalso.
  - apply app_len_inj in E; tauto.
  - apply app_len_inj in E; tauto.
  - apply app_len_inj in E; tauto.
  - apply E. now rewrite E1, E2.
Qed.
Lemma used_group parse by_ K fs T : used_rows parse by_ K fs T = filter (spass parse fs) (M_SqlLeaf.group by_ (List.map Some K) T).
Proof. unfold used_rows, M_SqlLeaf.group. rewrite L_SqlLeaf2.filter_filter. apply filter_ext. intros r. apply andb_comm. Qed.
Lemma spass_nil parse (T : stable) : filter (spass parse []) T = T.
Proof. apply filter_all. reflexivity. Qed.

Section Samples.
  Variables (parse : string -> cond) (psort : cum_how -> bool -> nat -> rframe -> rframe) (m : otree) (s : list string) (unit : string) (t : stable).
  Hypothesis Hps : pandas_sorts psort.
  Hypothesis Hparse : forall f, ~ In resample_idx (cond_labels (parse f)).
  Hypothesis Hsup : supported_tree (s ++ [resample_idx]) m.
  Hypothesis Hunit : forall r, In r t -> slab r unit <> None.
  Hypothesis Hlab : forall r c, In r t -> In c s -> slab r c <> None.
  Hypothesis Hparts : forall k x, unit_in s unit k x t -> left_out s unit k x t <> [] ->
    child_fits parse psort m [] (left_out s unit k x t) /\ every_leaf_has_rows parse m (left_out s unit k x t).
  Hypothesis Hex : exists k x, unit_in s unit k x t /\ left_out s unit k x t <> [].
  Notation jk := (jk_general s unit t).
  Notation lo := (fun k x => left_out s unit k x t).

  Lemma idx_fresh : ~ In resample_idx s.
  Proof. apply supported_nodup, NoDup_remove_2 in Hsup. now rewrite app_nil_r in Hsup. Qed.
  Lemma sup_nil : supported_tree [] m.
  Proof. pose proof (supported_drop m [] (s ++ [resample_idx]) []) as H. cbn [app] in H. rewrite !app_nil_r in H. auto. Qed.
  Lemma sup_s : supported_tree s m.
  Proof. pose proof (supported_drop m s [resample_idx] []) as H. rewrite !app_nil_r in H. auto. Qed.
  Lemma sup_idx : supported_tree [resample_idx] m.
  Proof. exact (supported_drop m [] s [resample_idx] Hsup). Qed.
  Lemma leaves_supported b ab lc e' : In (b, ab, lc, e') (bottoms [] m [] [] []) ->
    forall l fs, In (l, fs) (leaves_with_filters ab b) -> supported l /\ ~ In EmptyString fs.
  Proof.
    intros Hb l fs Hl. destruct Hex as (k & x & Hu & Hne). destruct (Hparts k x Hu Hne) as ([Hf _] & _). destruct (Hf b ab lc e' Hb) as (H1 & _ & _). destruct (H1 l fs Hl) as (A & B & _). auto.
  Qed.
  Lemma avoids : tree_avoids [] m.
  Proof.
    apply (avoids_from [] m [] [] [] []); [exact sup_idx|]. intros b ab lc by' Hb. apply (leaves_ok_from b ab). intros l fs Hl. now apply (leaves_supported b ab lc by' Hb l fs).
  Qed.
  Lemma jk_len k x : unit_in s unit k x t -> List.length (k ++ [x]) = List.length (s ++ [resample_idx]).
  Proof. intros (r & _ & E & _). rewrite !app_length. f_equal. apply (f_equal (@List.length _)) in E. unfold srow_key in E. now rewrite !map_length in E. Qed.
  Lemma jk_bottoms b ab lc by' : In (b, ab, lc, by') (bottoms [] m (s ++ [resample_idx]) [] []) -> leaf_fits parse [] b ab lc by' jk.
  Proof.
    intros Hb. pose proof (bottoms_nodup _ _ _ _ _ _ _ _ _ Hsup Hb) as Hnd. pose proof (bottoms_prefix [] m (s ++ [resample_idx]) [] [] [] b ab lc by') as E. rewrite app_nil_r in E. apply E in Hb as (e' & -> & Hb). clear E.
    assert (~ In resample_idx e') as He. { intros Hi. rewrite <- app_assoc in Hnd. apply NoDup_remove_2 in Hnd. apply Hnd, in_or_app. now right. }
    pose proof (leaves_supported b ab lc e' Hb) as Hls. split; [|split].
    - intros l fs Hl. destruct (Hls l fs Hl) as [A B]. split; [exact A|]. split; [exact B|]. intros f r' Hf Hr. destruct (jk_row s unit t Hlab r' Hr) as (k & x & r & -> & Hu & Hr').
      apply verdict_R; [exact Hparse|]. assert (lo k x <> []) as Hne by (intros E; cbn beta in E; rewrite E in Hr'; destruct Hr'). destruct (Hparts k x Hu Hne) as ([Hfit _] & _). destruct (Hfit b ab lc e' Hb) as (H1 & _ & _). now apply (H1 l fs Hl).
    - intros r' c Hr _ Hc. destruct (jk_row s unit t Hlab r' Hr) as (k & x & r & -> & Hu & Hr'). cbn. destruct (String.eqb_spec c resample_idx) as [_|Hne]; [discriminate|].
      apply in_app_or in Hc as [Hc|Hc]; [apply in_app_or in Hc as [Hc|[Hc|[]]]; [apply left_out_in in Hr' as (Hr' & _); now apply Hlab|congruence]|].
      assert (lo k x <> []) as Hn0 by (intros E; cbn beta in E; rewrite E in Hr'; destruct Hr'). destruct (Hparts k x Hu Hn0) as ([Hfit _] & _). destruct (Hfit b ab lc e' Hb) as (_ & H2 & _). apply (H2 r c Hr'); auto.
    - intros K HK. destruct HK as [[E _]|(r' & Hr & _ & EK)]; [destruct s; discriminate|].
      destruct (jk_row s unit t Hlab r' Hr) as (k & x & r & -> & Hu & Hr'). pose proof Hr' as Hr''. apply left_out_in in Hr'' as (Hrt & Ek & _).
      rewrite srow_key_app, (srow_key_idx s idx_fresh), Ek, (srow_key_relabel e' (Some x) r He) in EK.
      assert (lo k x <> []) as Hn0 by (intros E; cbn beta in E; rewrite E in Hr'; destruct Hr'). destruct (Hparts k x Hu Hn0) as ([Hfit _] & Hev). destruct (Hfit b ab lc e' Hb) as (_ & H2 & H3).
      destruct (srow_key_labels e' r) as [g Eg]; [intros c Hc; apply (H2 r c Hr'); auto|].
      assert (K = (k ++ [x]) ++ g) as ->. { apply some_inj. rewrite <- EK, Eg, !map_app. reflexivity. }
      assert (M_SqlLeaf.group ((s ++ [resample_idx]) ++ e') (List.map Some ((k ++ [x]) ++ g)) jk = List.map (relabel (Some x)) (M_SqlLeaf.group e' (List.map Some g) (lo k x))) as EG.
      { rewrite map_app, group_split by (rewrite map_length; now apply jk_len). rewrite (jk_group s unit t idx_fresh Hunit k x Hu). unfold M_SqlLeaf.group. rewrite filter_map_comm. f_equal. apply filter_ext. intros z. now rewrite srow_key_relabel. }
      assert (forall fs, used_rows parse ((s ++ [resample_idx]) ++ e') ((k ++ [x]) ++ g) fs jk = List.map (relabel (Some x)) (used_rows parse e' g fs (lo k x))) as EU.
      { intros fs. rewrite !used_group, EG, filter_map_comm. f_equal. apply filter_ext. intros z. now apply spass_G. }
      assert ((e' = [] /\ g = []) \/ (exists r, In r (lo k x) /\ spass parse [] r = true /\ srow_key e' r = List.map Some g)) as HK by (right; exists r; auto).
      specialize (H3 g HK) as (H3 & H4). split.
      + intros l fs Hl. rewrite EU. destruct (H3 l fs Hl) as [Hu' Hc]. split; [|now apply cov_R].
        right. intros E. apply map_eq_nil in E. destruct Hu' as [[-> ->]|Hu']; [|contradiction]. destruct (Hev b ab lc [] l fs Hb Hl) as (z & Hz & Hp).
        cbn beta in Hz, E. assert (In z (used_rows parse [] [] fs (left_out s unit k x t))) as Hi; [|rewrite E in Hi; destruct Hi]. apply filter_In. split; [exact Hz|]. rewrite Hp. reflexivity.
      + rewrite spass_nil in *. rewrite EG. apply fits_R; assumption.
  Qed.

  (** ... and its result *)
  Lemma jk_slice K : slice (s ++ [resample_idx]) K (pandas_table jk) <> [] -> exists k x, K = k ++ [x] /\ unit_in s unit k x t /\ lo k x <> [].
  Proof.
    intros H. destruct (slice_jk_inv s unit t idx_fresh Hlab K H) as (k & x & -> & Hu). exists k, x. split; [reflexivity|]. split; [exact Hu|].
    rewrite (slice_jk s unit t idx_fresh Hunit k x Hu) in H. cbn beta. intros E. rewrite E in H. now apply H.
  Qed.
  Lemma jk_slice_ne k x : unit_in s unit k x t -> lo k x <> [] -> slice (s ++ [resample_idx]) (k ++ [x]) (pandas_table jk) <> [].
  Proof. intros Hu Hne. rewrite (slice_jk s unit t idx_fresh Hunit k x Hu). cbn beta in Hne. destruct (left_out s unit k x t); [congruence|discriminate]. Qed.
  (** what [lift] needs, for one sample of one slice *)
  Lemma part_ok T : child_fits parse psort m [] T -> every_leaf_has_rows parse m T ->
    tree_fits parse psort m [] (pandas_table T) /\ ofilled parse m (pandas_table T) /\ proper_in parse psort m [] (pandas_table T).
  Proof.
    intros [Hf Ht] Hev. assert (filter (pfilters parse []) (pandas_table T) = pandas_table T) as E by apply no_filters. split; [exact Ht|]. rewrite <- E at 1 2. split.
    - apply (ofilled_from parse T m [] [] []). intros b ab lc by' l fs Hb Hl. split; [now apply (Hev b ab lc by' l fs)|]. destruct (Hf b ab lc by' Hb) as (H1 & _). now destruct (H1 l fs Hl) as (_ & _ & H).
    - apply (proper_from parse psort T Hps m [] [] []); auto; [exact sup_nil|apply placed_nil|now rewrite E].
  Qed.
  Lemma relabel_ok x T : tree_avoids [] m -> child_fits parse psort m [] T -> every_leaf_has_rows parse m T ->
    tree_fits parse psort m [] (List.map (G x) (pandas_table T)) /\ ofilled parse m (List.map (G x) (pandas_table T)) /\ proper_in parse psort m [] (List.map (G x) (pandas_table T)).
  Proof.
    intros Ha H1 H2. rewrite <- pandas_relabels. apply part_ok.
    - split; [|rewrite pandas_relabels; apply tree_fits_G; auto; apply H1]. intros b ab lc by' Hb. destruct H1 as [Hf _]. destruct (Hf b ab lc by' Hb) as (A & B & C).
      assert (~ In resample_idx by') as Hby.
      { pose proof (bottoms_prefix [] m [resample_idx] [] [] [] b ab lc (resample_idx :: by')) as E. cbn [app] in E. pose proof (proj2 E (ex_intro _ by' (conj eq_refl Hb))) as Hb'. apply bottoms_nodup in Hb'; [|exact sup_idx]. now inversion Hb'. }
      assert (forall g, M_SqlLeaf.group by' (List.map Some g) (List.map (relabel x) T) = List.map (relabel x) (M_SqlLeaf.group by' (List.map Some g) T)) as EG.
      { intros g. unfold M_SqlLeaf.group. rewrite filter_map_comm. f_equal. apply filter_ext. intros z. now rewrite srow_key_relabel. }
      split; [|split].
      + intros l fs Hl. destruct (A l fs Hl) as (A1 & A2 & A3). split; [exact A1|]. split; [exact A2|]. intros f r Hfi Hr. apply in_map_iff in Hr as (r' & <- & Hr). apply verdict_R; auto.
      + intros r c Hr _ Hc. apply in_map_iff in Hr as (r' & <- & Hr). cbn. destruct (String.eqb_spec c resample_idx) as [->|_]; [contradiction|]. apply (B r' c Hr); auto.
      + intros g Hg. assert ((by' = [] /\ g = []) \/ (exists r, In r T /\ spass parse [] r = true /\ srow_key by' r = List.map Some g)) as Hg'.
        { destruct Hg as [Hg|(r & Hr & Hp & Hk)]; [auto|right]. apply in_map_iff in Hr as (r' & <- & Hr). exists r'. rewrite srow_key_relabel in Hk by assumption. auto. }
        specialize (C g Hg') as (C1 & C2). rewrite spass_nil in *. rewrite EG. split; [|now apply fits_R]. intros l fs Hl. destruct (C1 l fs Hl) as [D1 D2].
        rewrite !used_group in *. rewrite EG.
        assert (filter (spass parse fs) (List.map (relabel x) (M_SqlLeaf.group by' (List.map Some g) T)) = List.map (relabel x) (filter (spass parse fs) (M_SqlLeaf.group by' (List.map Some g) T))) as -> by (rewrite filter_map_comm; f_equal; apply filter_ext; intros z; now apply spass_G).
        split; [|now apply cov_R]. destruct D1 as [D1|D1]; [auto|right]. intros E. now apply map_eq_nil in E.
    - intros b ab lc by' l fs Hb Hl. destruct (H2 b ab lc by' l fs Hb Hl) as (r & Hr & Hp). exists (relabel x r). split; [now apply in_map|]. now rewrite spass_G.
  Qed.

  Theorem jk_whole : exists R, op_compute parse psort m (s ++ [resample_idx]) (pandas_table jk) = Some R /\
    (forall k x, unit_in s unit k x t -> lo k x <> [] -> op_compute parse psort m [] (pandas_table (lo k x)) = Some (restrict (S (List.length s)) (k ++ [x]) R)) /\
    (forall q, In q R -> exists k x g, fst q = k ++ x :: g /\ unit_in s unit k x t /\ lo k x <> []) /\
    tree_fits parse psort m (s ++ [resample_idx]) (pandas_table jk).
  Proof.
    destruct Hex as (k0 & x0 & Hu0 & Hne0).
    assert (parts parse psort m (s ++ [resample_idx]) [] (pandas_table jk)) as HP.
    { intros K HK. destruct (jk_slice K HK) as (k & x & -> & Hu & Hne). rewrite (slice_jk s unit t idx_fresh Hunit k x Hu). destruct (Hparts k x Hu Hne) as [H1 H2]. apply relabel_ok; auto using avoids. }
    assert (s ++ [resample_idx] <> []) as Hs by (destruct s; discriminate).
    pose proof (lift parse psort Hps m (s ++ [resample_idx]) [] (pandas_table jk) Hs) as HL. rewrite app_nil_r in HL.
    destruct HL as (Hfit & R & ER & Hr & Hk); auto; [exists (k0 ++ [x0]); now apply jk_slice_ne|]. rewrite app_nil_r in Hfit, ER. rewrite app_length in Hr, Hk. cbn [List.length] in Hr, Hk. rewrite Nat.add_1_r in Hr, Hk.
    exists R. split; [exact ER|]. split; [|split; [|exact Hfit]].
    - intros k x Hu Hne. specialize (Hr (k ++ [x]) (jk_slice_ne k x Hu Hne)). rewrite (slice_jk s unit t idx_fresh Hunit k x Hu), op_compute_G in Hr by (auto using avoids). exact Hr.
    - intros q Hq. specialize (Hk q Hq). destruct (jk_slice _ Hk) as (k & x & E & Hu & Hne). exists k, x, (skipn (S (List.length s)) (fst q)). split; [|auto]. rewrite <- (firstn_skipn (S (List.length s)) (fst q)) at 1. rewrite E, <- app_assoc. reflexivity.
  Qed.
  Theorem jk_samples srt : db_sorts srt -> exists R, op_compute parse psort m (s ++ [resample_idx]) (pandas_table jk) = Some R /\
    inv parse srt jk (samples_sql m s) ((s ++ [resample_idx]) ++ extra_idx m) (value_name m) R.
  Proof.
    intros Hd. destruct jk_whole as (R & ER & _ & _ & Hfit).
    destruct (tree_step parse srt psort jk Hd Hps [] m (s ++ [resample_idx]) [] []) as (F & EF & HF & _); auto; [exact jk_bottoms|apply placed_nil|now rewrite no_filters|].
    rewrite no_filters in EF. exists F. split; [exact EF|]. unfold samples_sql. change (resample_idx :: extra_idx m) with ([resample_idx] ++ extra_idx m). rewrite app_assoc. exact HF.
  Qed.
End Samples.
