(** Lemmas for C68: batches, columns, and tables whose groups are known. *)
From Coq Require Import Reals List Bool String Arith ZArith Permutation Lia.
From Verif Require Import M_Num M_Frame L_Frame M_Leaf M_Ops L_OpsB M_Slices S_Slices L_Slices M_Jackknife M_SqlGlobal M_SqlLeaf S_SqlLeaf L_SqlLeaf L_SqlLeaf2 M_SqlOps S_SqlOps L_SqlOps L_SqlOps7 L_SqlSort L_SqlScope L_SqlJack2 L_SqlJack3 M_SqlJackknife S_SqlJackknife L_SqlJack1 L_SqlJack4 L_SqlJack5 M_SqlMixed S_SqlMixed L_SqlMixed M_SqlMixedJack.
Import ListNotations.
Open Scope string_scope.
Open Scope list_scope.

Lemma chunks_concat {A} b (l : list A) : b <> O -> List.concat (chunks b l) = l.
Proof.
  intros Hb. unfold chunks.
  assert (forall c i (l' : list A), l' = skipn (i * b) l -> (List.length l' <= c * b)%nat ->
    List.concat (List.map (fun i => firstn b (skipn (i * b) l)) (seq i c)) = l') as H.
  { induction c as [|c IH]; intros i l' E Hl; cbn [seq List.map List.concat].
    - cbn in Hl. destruct l'; [reflexivity|cbn in Hl; lia].
    - rewrite (IH (S i) (skipn b l')); [rewrite <- E; apply firstn_skipn| |].
      + rewrite E. rewrite L_OpsB.skipn_skipn || rewrite skipn_skipn. f_equal; try lia.
      + rewrite skipn_length. cbn in Hl. lia. }
  apply (H _ O l); [reflexivity|].
  assert (List.length l + b - 1 < b * ((List.length l + b - 1) / b) + b)%nat as Hd.
  { pose proof (Nat.div_mod (List.length l + b - 1) b Hb) as E. pose proof (Nat.mod_upper_bound (List.length l + b - 1) b Hb). lia. }
  nia.
Qed.
Lemma chunks_ne {A} b (l c : list A) : b <> O -> In c (chunks b l) -> c <> [].
Proof.
  intros Hb H. unfold chunks in H. apply in_map_iff in H as (i & <- & Hi). apply in_seq in Hi as [_ Hi]. cbn in Hi.
  intros E. apply (f_equal (@List.length _)) in E. rewrite firstn_length, skipn_length in E. cbn in E.
  assert (i * b < List.length l)%nat; [|lia].
  assert (List.length l + b - 1 = b * ((List.length l + b - 1) / b) + (List.length l + b - 1) mod b)%nat as Ed by (apply Nat.div_mod; exact Hb).
  nia.
Qed.
Lemma first_seen_In l x : In x (first_seen l) <-> In x l.
Proof. unfold first_seen. rewrite <- in_rev, nodup_In. symmetry. apply in_rev. Qed.
Lemma first_seen_NoDup l : NoDup (first_seen l).
Proof. unfold first_seen. apply NoDup_rev. apply NoDup_nodup. Qed.
Lemma all_some_map {A B} (f : A -> option B) (g : A -> B) l : (forall x, In x l -> f x = Some (g x)) -> all_some (List.map f l) = Some (List.map g l).
Proof. induction l as [|x l IH]; intros H; [reflexivity|]. cbn. rewrite H by now left. rewrite IH by (intros y Hy; apply H; now right). reflexivity. Qed.
Lemma all_some_ex {A B} (f : A -> option B) (P : A -> B -> Prop) l : (forall x, In x l -> exists y, f x = Some y /\ P x y) -> exists r, all_some (List.map f l) = Some r /\ Forall2 P l r.
Proof.
  induction l as [|x l IH]; intros H; [exists []; split; [reflexivity|constructor]|]. destruct (H x (or_introl eq_refl)) as (y & E & Hy).
  destruct IH as (r & Er & Hr); [intros z Hz; apply H; now right|]. exists (y :: r). cbn. rewrite E, Er. split; [reflexivity|now constructor].
Qed.
Lemma differs_true x y : differs x y = true <-> exists a b, x = Some a /\ y = Some b /\ a <> b.
Proof.
  unfold differs, sql_eq. destruct x as [a|], y as [b|]; cbn; split; try discriminate; try (intros (? & ? & E1 & E2 & _); discriminate).
  - destruct (String.eqb_spec a b); cbn; [discriminate|]. intros _. eauto.
  - intros (a' & b' & E1 & E2 & Hn). injection E1 as <-. injection E2 as <-. apply String.eqb_neq in Hn. now rewrite Hn.
Qed.
Lemma slookup_labelled K (fr : rframe) : slookup (List.map Some K) (List.map labelled fr) = lookup K fr.
Proof.
  induction fr as [|[k v] fr IH]; [reflexivity|]. cbn [List.map labelled fst snd slookup lookup]. destruct (skey_dec (List.map Some k) (List.map Some K)) as [E|E].
  - apply some_inj in E as ->. assert (key_eqb K K = true) as -> by (now apply key_eqb_eq). reflexivity.
  - destruct (key_eqb k K) eqn:E'; [|exact IH]. apply key_eqb_eq in E' as ->. now contradiction E.
Qed.
Lemma slookup_None K c : ~ In K (List.map fst c) -> slookup K c = NaN.
Proof. induction c as [|[k v] c IH]; intros H; [reflexivity|]. cbn in *. destruct (skey_dec k K) as [->|_]; [exfalso; apply H; now left|]. apply IH. tauto. Qed.
Lemma slookup_app_None K a b : ~ In K (List.map fst a) -> slookup K (a ++ b) = slookup K b.
Proof. induction a as [|[k v] a IH]; intros H; [reflexivity|]. cbn in *. destruct (skey_dec k K) as [->|_]; [exfalso; apply H; now left|]. apply IH. tauto. Qed.
Lemma slookup_app_first K a b : ~ In K (List.map fst b) -> slookup K (a ++ b) = slookup K a.
Proof. intros H. induction a as [|[k v] a IH]; cbn; [now apply slookup_None|]. destruct (skey_dec k K); auto. Qed.

(** ** A table and its groups *)
Lemma leaves_prefix_metric b s : forall ab e l ab' w by', In (l, ab', w, by') (metric_leaves b ab (s ++ e)) <-> exists e', by' = s ++ e' /\ In (l, ab', w, e') (metric_leaves b ab e).
Proof.
  induction b as [l0 w0|op a IHa b IHb w0|op x a IHa w0|op a IHa x w0|a IHa w0|a IHa w0]; intros ab e l ab' w by'; cbn [metric_leaves]; auto.
  - split.
    + intros [H|[]]. injection H as -> -> -> <-. exists e. split; [reflexivity|now left].
    + intros (e' & -> & [H|[]]). injection H as -> -> -> ->. now left.
  - rewrite in_app_iff, IHa, IHb. split.
    + intros [(e' & ? & ?)|(e' & ? & ?)]; exists e'; rewrite in_app_iff; auto.
    + intros (e' & ? & H). apply in_app_or in H as [H|H]; eauto.
Qed.
Lemma leaves_prefix m s : forall ab e l ab' w by', In (l, ab', w, by') (tree_leaves m ab (s ++ e)) <-> exists e', by' = s ++ e' /\ In (l, ab', w, e') (tree_leaves m ab e).
Proof.
  induction m as [m name|over ch IH w0|over how asc ch IH w0|p cond base incl ch IH w0|d over ch IH w0|op x IHa y IHb name w0|op x ch IH name w0|op ch IH x name w0];
    intros ab e l ab' w by'; cbn [tree_leaves]; rewrite <- ?app_assoc; auto.
  - apply leaves_prefix_metric.
  - rewrite in_app_iff, IHa, IHb. split.
    + intros [(e' & ? & ?)|(e' & ? & ?)]; exists e'; rewrite in_app_iff; auto.
    + intros (e' & ? & H). apply in_app_or in H as [H|H]; eauto.
Qed.
Lemma metric_leaves_by b : forall ab by_ l ab' w by', In (l, ab', w, by') (metric_leaves b ab by_) -> by' = by_.
Proof.
  induction b as [l0 w0|op a IHa b IHb w0|op x a IHa w0|op a IHa x w0|a IHa w0|a IHa w0]; intros ab by_ l ab' w by' H; cbn [metric_leaves] in H; eauto.
  - destruct H as [H|[]]. now injection H.
  - apply in_app_or in H as [H|H]; eauto.
Qed.
Lemma leaves_nodup m : forall by_ ab l ab' w by', supported_tree by_ m -> In (l, ab', w, by') (tree_leaves m ab by_) -> NoDup by'.
Proof.
  induction m as [m name|over ch IH w|over how asc ch IH w|p cond base incl ch IH w|d over ch IH w|op x IHa y IHb name w|op x ch IH name w|op ch IH x name w];
    intros by_ ab l ab' w' by' Hs H; cbn [tree_leaves supported_tree] in *.
  - apply metric_leaves_by in H as ->. apply Hs.
  - destruct Hs as (_ & _ & _ & Hs). eapply IH; eauto.
  - destruct Hs as (_ & _ & _ & _ & _ & Hs). eapply IH; eauto.
  - destruct Hs as (_ & _ & _ & Hs). eapply IH; eauto.
  - destruct Hs as (_ & _ & _ & _ & Hs). eapply IH; eauto.
  - destruct Hs as (_ & Ha & Hb & _). apply in_app_or in H as [H|H]; eauto.
  - destruct Hs as (_ & Hs). eapply IH; eauto.
  - destruct Hs as (_ & Hs). eapply IH; eauto.
Qed.

Section Cover.
  Variable parse : string -> cond.
  (** the leaf conditions of the groups are those of the table *)
  Lemma leaf_cover p T l ab w e : p <> [] -> T <> [] -> (forall r, In r T -> exists K, srow_key p r = List.map Some K) ->
    (forall K, M_SqlLeaf.group p (List.map Some K) T <> [] -> mixed_leaf_fits parse (M_SqlLeaf.group p (List.map Some K) T) (l, ab, w, e)) ->
    mixed_leaf_fits parse T (l, ab, w, p ++ e).
  Proof.
    intros Hp HT Hk H.
    assert (forall r, In r T -> exists K, srow_key p r = List.map Some K /\ In r (M_SqlLeaf.group p (List.map Some K) T)) as Hg.
    { intros r Hr. destruct (Hk r Hr) as (K & E). exists K. split; [exact E|]. apply filter_In. split; [exact Hr|]. rewrite E. now destruct (skey_dec _ _). }
    assert (forall r, In r T -> exists K, srow_key p r = List.map Some K /\ In r (M_SqlLeaf.group p (List.map Some K) T) /\ mixed_leaf_fits parse (M_SqlLeaf.group p (List.map Some K) T) (l, ab, w, e)) as Hg'.
    { intros r Hr. destruct (Hg r Hr) as (K & E & Hi). exists K. split; [exact E|]. split; [exact Hi|]. apply H. intros E0. now rewrite E0 in Hi. }
    destruct T as [|r0 T0]; [contradiction|]. set (T := r0 :: T0) in *. destruct (Hg' r0 (or_introl eq_refl)) as (K0 & _ & _ & H1 & H2 & _).
    split; [exact H1|]. split; [exact H2|]. split; [|split].
    - intros f r Hf Hr. destruct (Hg' r Hr) as (K & E & Hi & _ & _ & Hv & _). now apply Hv.
    - intros r c Hr Hs Hc. destruct (Hg' r Hr) as (K & E & Hi & _ & _ & _ & Hl & _). apply in_app_or in Hc as [Hc|Hc]; [|now apply Hl].
      intros E0. assert (In None (List.map Some K)) as Hn; [|now apply none_some in Hn]. rewrite <- E. unfold srow_key. apply in_map_iff. eauto.
    - intros K' [[E _]|Hu]; [apply app_eq_nil in E as [E _]; contradiction|].
      destruct (used_rows parse (p ++ e) K' (ab ++ w) T) as [|r rows] eqn:Eu; [congruence|]. assert (In r (used_rows parse (p ++ e) K' (ab ++ w) T)) as Hr by (rewrite Eu; now left). rewrite <- Eu in *.
      apply filter_In in Hr as [Hr Hr2]. apply andb_true_iff in Hr2 as [Hs Hk']. destruct (skey_dec (srow_key (p ++ e) r) (List.map Some K')) as [Ek|]; [|discriminate].
      destruct (Hg' r Hr) as (K & E & Hi & _ & _ & _ & Hl & Hf). destruct (srow_key_labels e r) as [g Eg]; [intros c Hc; now apply Hl|].
      assert (K' = K ++ g) as ->. { apply some_inj. rewrite <- Ek, srow_key_app, E, Eg. now rewrite map_app. }
      assert (List.length (List.map (@Some string) K) = List.length p) as HlK by (rewrite <- E; unfold srow_key; apply map_length).
      assert (used_rows parse (p ++ e) (K ++ g) (ab ++ w) T = used_rows parse e g (ab ++ w) (M_SqlLeaf.group p (List.map Some K) T)) as EU by (rewrite !used_group, map_app, group_split by assumption; reflexivity).
      rewrite EU. apply Hf. right. now rewrite <- EU.
  Qed.
  Lemma mixed_cover m p T : p <> [] -> T <> [] -> (forall r, In r T -> exists K, srow_key p r = List.map Some K) ->
    (forall K, M_SqlLeaf.group p (List.map Some K) T <> [] -> mixed_fits parse m [] [] (M_SqlLeaf.group p (List.map Some K) T)) -> mixed_fits parse m [] p T.
  Proof.
    intros Hp HT Hk H [[[l ab] w] by'] Hx. rewrite <- (app_nil_r p) in Hx. apply leaves_prefix in Hx as (e & -> & Hx). apply leaf_cover; auto. intros K HK. now apply (H K HK).
  Qed.
  Hypothesis Hparse : forall f, ~ In resample_idx (cond_labels (parse f)).
  Lemma leaf_relabel x T l ab w e : ~ In resample_idx e -> mixed_leaf_fits parse T (l, ab, w, e) -> mixed_leaf_fits parse (List.map (relabel x) T) (l, ab, w, e).
  Proof.
    intros He (H1 & H2 & H3 & H4 & H5).
    assert (forall g fs, used_rows parse e g fs (List.map (relabel x) T) = List.map (relabel x) (used_rows parse e g fs T)) as EU.
    { intros g fs. unfold used_rows. rewrite filter_map_comm. f_equal. apply filter_ext. intros z. now rewrite srow_key_relabel, spass_G. }
    split; [exact H1|]. split; [exact H2|]. split; [|split].
    - intros f r Hf Hr. apply in_map_iff in Hr as (r' & <- & Hr). apply verdict_R; auto.
    - intros r c Hr Hs Hc. apply in_map_iff in Hr as (r' & <- & Hr). rewrite spass_G in Hs by assumption. cbn. destruct (String.eqb_spec c resample_idx) as [->|_]; [contradiction|]. now apply (H4 r' c).
    - intros k Hk. rewrite EU in *. destruct (H5 k) as [A B]; [destruct Hk as [Hk|Hk]; [auto|right; intros E; rewrite E in Hk; now apply Hk]|]. split; [now apply fits_R|now apply cov_R].
  Qed.
  Lemma mixed_relabel m x T : supported_tree [resample_idx] m -> mixed_fits parse m [] [] T -> mixed_fits parse m [] [] (List.map (relabel x) T).
  Proof.
    intros Hs H [[[l ab] w] by'] Hx. apply leaf_relabel; [|now apply H].
    pose proof (leaves_prefix m [resample_idx] [] [] l ab w (resample_idx :: by')) as E. cbn [app] in E. pose proof (proj2 E (ex_intro _ by' (conj eq_refl Hx))) as Hx'. apply leaves_nodup in Hx'; [|exact Hs]. now inversion Hx'.
  Qed.

  Variables (dbo : query -> list (skey * option R) -> list (skey * option R)) (psort : cum_how -> bool -> nat -> rframe -> rframe).
  Hypothesis Hdb : some_order dbo.
  Hypothesis Hps : pandas_sorts psort.
  (** the result of a table from those of its groups *)
  Lemma whole_of m p T : p <> [] -> T <> [] -> supported_tree p m -> (forall r, In r T -> exists K, srow_key p r = List.map Some K) ->
    (forall K, M_SqlLeaf.group p (List.map Some K) T <> [] -> mixed_fits parse m [] [] (M_SqlLeaf.group p (List.map Some K) T) /\
       tree_fits parse psort m [] (pandas_table (M_SqlLeaf.group p (List.map Some K) T)) /\ ofilled parse m (pandas_table (M_SqlLeaf.group p (List.map Some K) T)) /\
       proper_in parse psort m [] (pandas_table (M_SqlLeaf.group p (List.map Some K) T))) ->
    exists D, mixed parse dbo psort m p T = Some D /\ op_compute parse psort m p (pandas_table T) = Some D /\
      (forall K, M_SqlLeaf.group p (List.map Some K) T <> [] -> op_compute parse psort m [] (pandas_table (M_SqlLeaf.group p (List.map Some K) T)) = Some (restrict (List.length p) K D)) /\
      (forall q, In q D -> M_SqlLeaf.group p (List.map Some (firstn (List.length p) (fst q))) T <> []).
  Proof.
    intros Hp HT Hs Hk H.
    assert (forall K, slice p K (pandas_table T) <> [] <-> M_SqlLeaf.group p (List.map Some K) T <> []) as HI.
    { intros K. rewrite slice_pandas. unfold pandas_table. split; intros E E'; apply E; [now rewrite E'|now apply map_eq_nil in E']. }
    assert (mixed_fits parse m [] p T) as HM. { apply mixed_cover; auto. intros K HK. now apply H. }
    pose proof (lift parse psort Hps m p [] (pandas_table T) Hp) as HL. rewrite app_nil_r in HL. destruct HL as (_ & D & ED & HD & HK); auto.
    - destruct T as [|r T']; [contradiction|]. destruct (Hk r (or_introl eq_refl)) as (K & E). exists K. apply HI. cbn. rewrite E. destruct (skey_dec _ _); [discriminate|congruence].
    - intros K HK. apply HI in HK. rewrite slice_pandas. now apply H.
    - rewrite app_nil_r in ED. exists D. split; [|split; [exact ED|split]].
      + pose proof (tree_equal parse dbo psort Hdb m [] p T HM) as E. rewrite !sub_nil in E. now rewrite E.
      + intros K HK'. rewrite <- slice_pandas. apply HD. now apply HI.
      + intros q Hq. apply HI. now apply HK.
  Qed.
End Cover.
