(** Samples of a table and of its sums per unit. *)
From Coq Require Import Reals List Bool String Arith ZArith Permutation Lia Lra.
From Verif Require Import M_Num M_Frame L_Frame M_Leaf M_Ops S_Ops L_OpsA M_SqlGlobal S_SqlGlobal L_SqlGlobal M_SqlLeaf S_SqlLeaf L_SqlLeaf L_SqlLeaf2 M_SqlOps S_SqlOps L_SqlOps L_SqlOps7 M_SqlJackknife S_SqlJackknife L_SqlJack1 L_SqlJack4 L_SqlJack5 M_SqlJackFast L_SqlSummary L_SqlSummary2 L_SqlLoo1 L_SqlLoo2 S_SqlBoot S_SqlBootPre.
Import ListNotations.
Open Scope string_scope.
Open Scope list_scope.
Open Scope R_scope.

Lemma srow_key_app' (c d : list string) r : srow_key (c ++ d) r = srow_key c r ++ srow_key d r. Proof. apply map_app. Qed.
Lemma Rsum_perm l l' : Permutation l l' -> Rsum l = Rsum l'.
Proof. induction 1; cbn [Rsum]; lra. Qed.
Lemma Rsum_app l l' : Rsum (l ++ l') = Rsum l + Rsum l'.
Proof. induction l as [|x l IH]; cbn [app Rsum]; [lra|]. rewrite IH. lra. Qed.
Lemma group_flat {A} by_ K (f : A -> stable) l : M_SqlLeaf.group by_ K (flat_map f l) = flat_map (fun c => M_SqlLeaf.group by_ K (f c)) l.
Proof. induction l as [|c l IH]; [reflexivity|]. cbn [flat_map]. rewrite <- IH. apply filter_app. Qed.
Lemma group_perm' by_ K (a b : stable) : Permutation a b -> Permutation (M_SqlLeaf.group by_ K a) (M_SqlLeaf.group by_ K b).
Proof. apply L_SqlOps.filter_perm. Qed.

Section Pre.
  Variables (parse : string -> cond) (pre : leaf -> list string -> string) (s e : list string) (u : string) (t : stable) (lvs : list (leaf * list string)).
  Notation U := ((s ++ e) ++ [u]). Notation su := (s ++ [u]).
  Hypothesis Hne : t <> [].
  Hypothesis Hlab : forall r c, In r t -> In c U -> slab r c <> None.
  Hypothesis Hkind : forall l fs, In (l, fs) lvs -> sum_or_count_leaf l.
  Hypothesis Hpre : forall l fs l' fs', In (l, fs) lvs -> In (l', fs') lvs -> pre l fs = pre l' fs' -> (l, fs) = (l', fs').
  Notation D := (preagg parse pre lvs U t).
  Notation val p := (fun g => match snum g p with Some x => x | None => 0 end).
  Lemma su_U c : In c su -> In c U.
  Proof. intros H. apply in_app_or in H as [H|H]; apply in_or_app; [left; apply in_or_app; now left|now right]. Qed.

  Lemma rows_total c by_ K l fs : List.length c = List.length su -> (forall x, In x by_ -> In x (s ++ e)) -> In (l, fs) lvs ->
    total_of parse l fs (M_SqlLeaf.group by_ K (M_SqlLeaf.group su (List.map Some c) t)) = Rsum (List.map (val (pre l fs)) (M_SqlLeaf.group by_ K (M_SqlLeaf.group su (List.map Some c) D))).
  Proof.
    intros Hc Hb Hl. rewrite <- !group_split by (now rewrite map_length).
    apply (fine_group parse U); [|now apply D_fine|now apply (Hkind l fs)|intros g Hg; rewrite (D_col parse pre s e u t lvs Hne Hpre g l fs Hg Hl); destruct (leaf_column parse l fs _); auto].
    intros x Hx. apply in_app_or in Hx as [Hx|Hx]; [now apply su_U|apply in_or_app; left; now apply Hb].
  Qed.
  Lemma drawn_total C by_ K l fs : Forall (fun c => List.length c = List.length su) C -> (forall x, In x by_ -> In x (s ++ e)) -> In (l, fs) lvs ->
    total_of parse l fs (M_SqlLeaf.group by_ K (rows_of s u C t)) = Rsum (List.map (val (pre l fs)) (M_SqlLeaf.group by_ K (rows_of s u C D))).
  Proof.
    intros HC Hb Hl. unfold rows_of. rewrite !group_flat. induction HC as [|c C Hc HC IH]; [reflexivity|]. cbn [flat_map]. unfold total_of in *. rewrite !map_app, !Rsum_app, IH. f_equal. now apply (rows_total c).
  Qed.
  Lemma rows_of_in C T r : In r (rows_of s u C T) <-> In r T /\ exists c, In c C /\ srow_key su r = List.map Some c.
  Proof.
    unfold rows_of. rewrite in_flat_map. split.
    - intros (c & Hc & Hr). apply group_in in Hr as [Hr E]. eauto.
    - intros (Hr & c & Hc & E). exists c. split; [exact Hc|]. now apply group_in.
  Qed.
  Theorem drawn_summary C T' by_ : Forall (fun c => List.length c = List.length su) C -> Permutation T' (rows_of s u C D) -> (forall x, In x by_ -> In x (s ++ e)) ->
    summary parse pre by_ lvs (rows_of s u C t) T'.
  Proof.
    intros HC HP Hb. destruct (D_fine parse pre s e u t lvs Hne) as (F1 & F2 & F3).
    assert (forall g r, srow_key U g = srow_key U r -> srow_key su g = srow_key su r /\ srow_key by_ g = srow_key by_ r) as Hco.
    { intros g r E. rewrite key_agree in E. split; apply key_agree; intros c Hc; apply E; [now apply su_U|apply in_or_app; left; now apply Hb]. }
    split; [|split].
    - intros g c Hg Hc. apply (Permutation_in _ HP) in Hg. apply rows_of_in in Hg as (Hg & _). destruct (F3 g Hg) as (r & Hr & E). rewrite key_agree in E. assert (In c U) as Hc' by (apply in_or_app; left; now apply Hb). rewrite (E c Hc'). now apply Hlab.
    - intros K. split.
      + intros (r & Hr & E). apply rows_of_in in Hr as (Hr & c & Hc & Ec). destruct (F2 r Hr) as (g & Hg & Eg). destruct (Hco _ _ Eg) as [E1 E2]. exists g. split; [|congruence].
        apply (Permutation_in _ (Permutation_sym HP)). apply rows_of_in. split; [exact Hg|]. exists c. split; [exact Hc|congruence].
      + intros (g & Hg & E). apply (Permutation_in _ HP) in Hg. apply rows_of_in in Hg as (Hg & c & Hc & Ec). destruct (F3 g Hg) as (r & Hr & Eg). destruct (Hco _ _ Eg) as [E1 E2]. exists r. split; [|congruence].
        apply rows_of_in. split; [exact Hr|]. exists c. split; [exact Hc|congruence].
    - intros l fs K v Hl (r0 & Hr0 & E0) Hv. pose proof (Hkind l fs Hl) as Hk.
      rewrite (column_some parse l fs _ v Hk Hv), (drawn_total C by_ _ l fs HC Hb Hl).
      pose proof (group_perm' by_ (List.map Some K) _ _ HP) as HG.
      rewrite <- (Rsum_perm _ _ (Permutation_map (val (pre l fs)) HG)). apply sum_of_some.
      assert (carries parse [] t [] l fs "") as Hca by (intros g []).
      destruct (some_row parse [] t [] l fs "" Hk Hca (M_SqlLeaf.group by_ (List.map Some K) (rows_of s u C t))) as (r & Hr & Hc); [now rewrite Hv|intros E; assert (In r0 []) as []; rewrite <- E; now apply group_in|].
      apply group_in in Hr as [Hr E]. apply rows_of_in in Hr as (Hr & c & Hc' & Ec). destruct (F2 r Hr) as (g & Hg & Eg). destruct (Hco _ _ Eg) as [E1 E2]. exists g. split.
      + apply (Permutation_in _ (Permutation_sym HG)). apply group_in. split; [|congruence]. apply rows_of_in. split; [exact Hg|]. exists c. split; [exact Hc'|congruence].
      + rewrite (D_col parse pre s e u t lvs Hne Hpre g l fs Hg Hl). intros En. apply (column_none _ _ _ _ Hk) in En as [Hs Hn]. apply (Hc Hs). apply Hn. apply group_in. split; [exact Hr|congruence].
  Qed.
  Lemma rows_in_rows_of k C T : Forall (fun c => List.length c = List.length su) C ->
    rows_in s k (rows_of s u C T) = rows_of s u (filter (fun c => key_eqb (firstn (List.length s) c) k) C) T.
  Proof.
    intros HC. unfold rows_of, rows_in. fold (M_SqlLeaf.group s (List.map Some k) (flat_map (fun c => M_SqlLeaf.group su (List.map Some c) T) C)). rewrite group_flat.
    induction HC as [|c C Hc HC IH]; [reflexivity|]. cbn [flat_map filter]. rewrite IH.
    assert (forall r, srow_key su r = List.map Some c -> srow_key s r = List.map Some (firstn (List.length s) c)) as Hf.
    { intros r E. rewrite srow_key_app' in E. rewrite <- firstn_map, <- E, firstn_app. unfold srow_key at 3. rewrite map_length, Nat.sub_diag. cbn [firstn]. rewrite app_nil_r.
      symmetry. apply firstn_all2. unfold srow_key. now rewrite map_length. }
    unfold M_SqlLeaf.group at 1 2. rewrite L_SqlLeaf2.filter_filter. destruct (key_eqb (firstn (List.length s) c) k) eqn:Ek.
    - cbn [flat_map]. f_equal. apply filter_ext. intros r. destruct (skey_dec (srow_key su r) _) as [E|E]; [|reflexivity]. rewrite (Hf r E). apply key_eqb_eq in Ek as ->. destruct (skey_dec _ _); [reflexivity|congruence].
    - rewrite (L_OpsA.filter_none _ T); [reflexivity|]. intros r _. destruct (skey_dec (srow_key su r) _) as [E|E]; [|reflexivity]. rewrite (Hf r E). destruct (skey_dec _ _) as [E'|]; [|reflexivity]. apply some_inj in E'. apply key_eqb_eq in E'. congruence.
  Qed.
End Pre.

(** The child on a table and on its sums. *)
Section Child.
  Variables (parse : string -> cond) (psort : cum_how -> bool -> nat -> rframe -> rframe) (name : leaf -> list string -> string).
  Theorem child_push m s T T' :
    T <> [] -> (forall b ab lc by', In (b, ab, lc, by') (bottoms [] m s [] []) -> leaf_fits parse [] b ab lc by' T) ->
    (forall l fs, In (l, fs) (tree_leaves [] m) -> sum_or_count_leaf l) ->
    (forall by', (forall c, In c by' -> In c (s ++ extra_split m)) -> summary parse name by' (tree_leaves [] m) T T') ->
    op_compute parse psort (push_tree name [] m) s (pandas_table T') = op_compute parse psort m s (pandas_table T) /\
    (tree_fits parse psort m s (pandas_table T) -> child_fits parse psort (push_tree name [] m) s T').
  Proof.
    intros Hne Hfit Hkind Hsum.
    assert (forall b ab lc by', In (b, ab, lc, by') (bottoms [] m s [] []) ->
       (~ In "" lc /\ forall r, spass parse lc r = spass parse ab r) /\ leaf_fits parse [] b ab lc by' T /\
       (forall l fs, In (l, fs) (leaves_with_filters ab b) -> sum_or_count_leaf l) /\ summary parse name by' (leaves_with_filters ab b) T T') as HB.
    { intros b ab lc by' Hb. pose proof (Hfit _ _ _ _ Hb) as Hf. split; [|split; [exact Hf|split]].
      - apply (bottoms_loc parse m s [] [] b ab lc by'); auto. intros Hi. destruct (some_leaf b ab) as (l & fs & Hl & Hi'). destruct Hf as [Hf _]. destruct (Hf l fs Hl) as (_ & Hn & _). apply Hn, Hi', Hi.
      - intros l fs Hl. apply (Hkind l fs). eapply bottom_leaves; eauto.
      - destruct (Hsum by') as (S1 & S2 & S3); [intros c Hc; apply in_or_app; eapply bottom_cols; eauto|]. split; [exact S1|]. split; [exact S2|]. intros l fs K v Hl. apply S3. eapply bottom_leaves; eauto. }
    destruct (tree_push parse psort name (pandas_table T) (pandas_table T') m s [] []) as [E1 E2].
    { intros b ab lc by' Hb. destruct (HB _ _ _ _ Hb) as (B1 & B2 & B3 & B4). now apply (bottom_same parse name b ab lc by' T T'). }
    rewrite no_filters in E1, E2. split; [exact E1|]. intros Htf. split; [|auto].
    intros b ab lc by' Hb. assert (exists ab0 b0, b = push_metric name ab0 b0 /\ ab = [] /\ lc = [] /\ exists lc0, In (b0, ab0, lc0, by') (bottoms [] m s [] [])) as (ab0 & b0 & -> & -> & -> & lc0 & H0).
    { pose proof (push_bottoms name [] m s [] b ab lc by' Hb) as (H1 & b0 & ab0 & H2 & H3). destruct (H3 []) as (lc0 & H4). exists ab0, b0. repeat split; eauto. subst ab.
      clear - Hb. assert (forall m above by_, In (b, [], lc, by') (bottoms [] (push_tree name above m) by_ [] []) -> lc = []) as HH; [|eauto].
      clear. induction m as [mm nm|over ch IH w|over how asc ch IH w|p cond base incl ch IH w|d over ch IH w|op x IHa y IHb nm w|op x ch IH nm w|op ch IH x nm w]; intros above by_; cbn [push_tree bottoms app]; change (remove (add (add [] []) []) []) with (@nil string); eauto.
      - intros [H|[]]. now injection H as _ <- _.
      - intros H. apply in_app_or in H as [H|H]; eauto. }
    destruct (HB _ _ _ _ H0) as (B1 & B2 & B3 & B4). now apply (bottom_fits parse name b0 ab0 lc0 by' T T').
  Qed.
  (** leaves of the pushed tree have no filters *)
  Lemma push_has_rows m T : T <> [] -> every_leaf_has_rows parse (push_tree name [] m) T.
  Proof.
    intros Hn b ab lc by' l fs Hb Hl. destruct (push_bottoms name [] m [] [] b ab lc by' Hb) as (-> & b0 & ab0 & -> & _).
    apply push_leaves in Hl as (-> & _). destruct T as [|r T]; [congruence|]. exists r. split; [now left|reflexivity].
  Qed.
  (** A table fits if its slices do. *)
  Theorem fits_whole m s T : T <> [] -> supported_tree s m -> (forall r c, In r T -> In c s -> slab r c <> None) ->
    (forall k, rows_in s k T <> [] -> child_fits parse psort m [] (rows_in s k T) /\ every_leaf_has_rows parse m (rows_in s k T)) ->
    forall b ab lc by', In (b, ab, lc, by') (bottoms [] m s [] []) -> leaf_fits parse [] b ab lc by' T.
  Proof.
    intros Hne Hsup Hlab Hparts b ab lc by' Hb. pose proof (bottoms_prefix [] m s [] [] [] b ab lc by') as E. rewrite app_nil_r in E. apply E in Hb as (e' & -> & Hb). clear E.
    assert (forall r, In r T -> exists k, srow_key s r = List.map Some k /\ In r (rows_in s k T) /\ rows_in s k T <> []) as Hk.
    { intros r Hr. destruct (srow_key_labels s r) as [k Ek]; [intros c Hc; now apply Hlab|]. exists k. split; [exact Ek|]. assert (In r (rows_in s k T)) as Hi by (unfold rows_in; apply filter_In; split; [exact Hr|]; rewrite Ek; destruct (skey_dec _ _); [reflexivity|congruence]). split; [exact Hi|]. intros E. rewrite E in Hi. destruct Hi. }
    assert (exists r0, In r0 T) as (r0 & Hr0) by (destruct T; [congruence|eexists; now left]). split; [|split].
    - intros lf fs Hl. destruct (Hk r0 Hr0) as (k0 & _ & _ & H0). destruct (Hparts k0 H0) as [[Hf0 _] _]. destruct (Hf0 _ _ _ _ Hb) as (A & _). destruct (A lf fs Hl) as (A1 & A2 & _). split; [exact A1|]. split; [exact A2|].
      intros f r Hf Hr. destruct (Hk r Hr) as (k & _ & Hi & H). destruct (Hparts k H) as [[Hf' _] _]. destruct (Hf' _ _ _ _ Hb) as (B & _). now apply (B lf fs Hl).
    - intros r c Hr _ Hc. apply in_app_or in Hc as [Hc|Hc]; [now apply Hlab|]. destruct (Hk r Hr) as (k & _ & Hi & H). destruct (Hparts k H) as [[Hf' _] _]. destruct (Hf' _ _ _ _ Hb) as (_ & B & _). apply (B r c Hi); auto.
    - intros K HK.
      assert (exists r, In r T /\ srow_key (s ++ e') r = List.map Some K) as (r & Hr & EK).
      { destruct HK as [[E ->]|(r & Hr & _ & EK)]; [|eauto]. exists r0. split; [exact Hr0|]. now rewrite E. }
      destruct (Hk r Hr) as (k & Ek & Hi & Hn). destruct (Hparts k Hn) as ([Hf' _] & Hev). destruct (Hf' _ _ _ _ Hb) as (_ & H2 & H3).
      destruct (srow_key_labels e' r) as [g Eg]; [intros c Hc; apply (H2 r c Hi); auto|].
      assert (K = k ++ g) as ->. { apply some_inj. rewrite <- EK, srow_key_app', Ek, Eg, map_app. reflexivity. }
      assert (List.length k = List.length s) as Hkl. { apply (f_equal (@List.length _)) in Ek. unfold srow_key in Ek. now rewrite !map_length in Ek. }
      assert (M_SqlLeaf.group (s ++ e') (List.map Some (k ++ g)) T = M_SqlLeaf.group e' (List.map Some g) (rows_in s k T)) as EG.
      { rewrite map_app, group_split by (now rewrite map_length). reflexivity. }
      assert (forall fs, used_rows parse (s ++ e') (k ++ g) fs T = used_rows parse e' g fs (rows_in s k T)) as EU by (intros fs; now rewrite !used_group, EG).
      assert ((e' = [] /\ g = []) \/ (exists r, In r (rows_in s k T) /\ spass parse [] r = true /\ srow_key e' r = List.map Some g)) as HK' by (right; exists r; auto).
      specialize (H3 g HK') as (H3 & H4). split.
      + intros lf fs Hl. rewrite EU. destruct (H3 lf fs Hl) as [Hu' Hc]. split; [|exact Hc].
        right. intros E. destruct Hu' as [[-> ->]|Hu']; [|contradiction]. destruct (Hev b ab lc [] lf fs Hb Hl) as (z & Hz & Hp).
        assert (In z (used_rows parse [] [] fs (rows_in s k T))) as Hi'; [|rewrite E in Hi'; destruct Hi']. apply filter_In. split; [exact Hz|]. rewrite Hp. reflexivity.
      + rewrite L_SqlJack5.spass_nil in *. now rewrite EG.
  Qed.
End Child.
