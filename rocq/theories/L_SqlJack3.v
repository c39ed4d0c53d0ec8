(** A tree split by more columns: its result consists of its results on the slices. *)
From Coq Require Import Reals List Bool String Arith ZArith Permutation Sorted Lia Lra.
From Verif Require Import M_Num M_Frame L_Frame M_Leaf M_Ops S_Ops L_OpsA L_OpsB L_OpsC M_Slices S_Slices L_Slices L_Slices2 M_SqlGlobal M_SqlLeaf S_SqlLeaf M_SqlOps S_SqlOps L_SqlOps3 L_SqlBin3 L_SqlScope L_SqlJack2.
Import ListNotations.
Open Scope string_scope.
Open Scope list_scope.

Lemma combine_app {A B} (a a' : list A) : forall (b b' : list B), List.length b = List.length a -> combine (a ++ a') (b ++ b') = combine a b ++ combine a' b'.
Proof. induction a as [|x a IH]; intros [|y b] b' H; try discriminate; [reflexivity|]. cbn. f_equal. apply IH. now injection H. Qed.
Lemma assoc_app {A} c (a b : list (string * A)) : assoc c (a ++ b) = match assoc c a with Some x => Some x | None => assoc c b end.
Proof. induction a as [|[x y] a IH]; cbn; [reflexivity|]. destruct (String.eqb x c); auto. Qed.
Lemma project_app (s i1 i0 k r : list string) : List.length k = List.length s -> NoDup s -> (forall c, In c i0 -> ~ In c s) ->
  project (s ++ i1) (s ++ i0) (k ++ r) = k ++ project i1 i0 r.
Proof.
  intros Hk Hs Hi. unfold project. rewrite map_app, combine_app by assumption. f_equal.
  - transitivity (project s s k); [|now apply project_id]. unfold project. apply map_ext_in. intros c Hc. rewrite assoc_app. destruct (assoc_in s k c Hk Hc) as [x ->]. reflexivity.
  - apply map_ext_in. intros c Hc. rewrite assoc_app, assoc_out by auto. reflexivity.
Qed.

Lemma restrict_mapv n k (F : list string -> num -> num) (c : rframe) : List.length k = n ->
  restrict n k (List.map (fun kv => (fst kv, F (fst kv) (snd kv))) c) = List.map (fun kv => (fst kv, F (k ++ fst kv) (snd kv))) (restrict n k c).
Proof.
  intros Hk. induction c as [|[q v] c IH]; [reflexivity|]. cbn [List.map]. rewrite !restrict_cons. cbn [fst snd]. destruct (list_eq_dec string_dec (firstn n q) k) as [E|E]; [|exact IH].
  cbn [List.map fst snd]. rewrite IH. do 2 f_equal. rewrite <- E, firstn_skipn. reflexivity.
Qed.
Lemma restrict_align_op op n k a b : List.length k = n -> restrict n k (M_SqlLeaf.align op a b) = M_SqlLeaf.align op (restrict n k a) (restrict n k b).
Proof. exact (align_slice (num_op op) n k a b). Qed.
Lemma filter_slice s k (p : drow -> bool) df : slice s k (filter p df) = filter p (slice s k df).
Proof. unfold slice. apply filter_filter_comm. Qed.

(** Two results *)
Section Bin.
  Variables (s i0 i1 : list string) (P : list string -> Prop) (A B : rframe) (op : op2).
  Let n := List.length s.
  Hypothesis H0 : NoDup (s ++ i0).
  Hypothesis H1 : NoDup (s ++ i1).
  Hypothesis HA : forall q v, In (q, v) A -> exists k g, q = k ++ g /\ List.length k = n /\ P k.
  Hypothesis HB : forall q v, In (q, v) B -> exists k g, q = k ++ g /\ List.length k = n /\ P k.

  Lemma apart (i : list string) : NoDup (s ++ i) -> forall c, In c i -> ~ In c s.
  Proof. intros H c Hc Hs. clear - H Hc Hs. induction s as [|x l IH]; [destruct Hs|]. cbn in H. inversion H; subst. destruct Hs as [->|Hs]; [apply H2, in_or_app; auto|auto]. Qed.
  Lemma bin_restrict k : List.length k = n -> restrict n k (align_levels op (s ++ i0) (s ++ i1) A B) = align_levels op i0 i1 (restrict n k A) (restrict n k B).
  Proof.
    intros Hk. unfold align_levels. rewrite !app_length.
    assert (forall a b c, Nat.compare (a + b) (a + c) = Nat.compare b c) as HC by (intros a b c; induction a; cbn; auto).
    rewrite HC. destruct (Nat.compare (List.length i0) (List.length i1)).
    - now apply restrict_align_op.
    - rewrite (restrict_mapv n k (fun q v => num_op op (lookup (project (s ++ i1) (s ++ i0) q) A) v)) by assumption. apply map_ext. intros [q v]. cbn [fst snd]. do 2 f_equal.
      rewrite project_app, lookup_restrict; auto. now apply NoDup_head in H0. now apply apart.
    - rewrite (restrict_mapv n k (fun q v => num_op op v (lookup (project (s ++ i0) (s ++ i1) q) B))) by assumption. apply map_ext. intros [q v]. cbn [fst snd]. do 2 f_equal.
      rewrite project_app, lookup_restrict; auto. now apply NoDup_head in H0. now apply apart.
  Qed.
  Lemma bin_keys q v : In (q, v) (align_levels op (s ++ i0) (s ++ i1) A B) -> exists k g, q = k ++ g /\ List.length k = n /\ P k.
  Proof.
    unfold align_levels. destruct (Nat.compare _ _).
    - unfold M_SqlLeaf.align. intros H. apply in_map_iff in H as (q' & E & H). injection E as -> _. apply sort_uniq_In, in_app_or in H as [H|H]; apply in_map_iff in H as ([q'' u] & E & H); cbn in E; subst q''; eauto.
    - intros H. apply in_map_iff in H as ([q' u] & E & H). injection E as -> _. eauto.
    - intros H. apply in_map_iff in H as ([q' u] & E & H). injection E as -> _. eauto.
  Qed.
  Lemma key_in (F : rframe) k : In k (List.map fst F) -> exists v, In (k, v) F.
  Proof. intros H. apply in_map_iff in H as ([k' v] & E & H). cbn in E. subst. eauto. Qed.
  Lemma bin_lift : (forall k, P k -> bin_fits op i0 i1 (restrict n k A) (restrict n k B)) -> bin_fits op (s ++ i0) (s ++ i1) A B.
  Proof.
    intros H. pose proof (NoDup_head _ _ H0) as Hs. pose proof (apart _ H0) as A0. pose proof (apart _ H1) as A1. unfold bin_fits. cbn zeta. rewrite !app_length. split; [|split].
    - intros Hl q Hq. apply key_in in Hq as [v Hq]. destruct (HA q v Hq) as (k & g & -> & Hk & Hp). destruct (H k Hp) as (F1 & _). destruct F1 with (k := g) as (g' & Hg' & E).
      + lia.
      + apply restrict_keys_In; [exact Hk|]. exact (in_map fst _ _ Hq).
      + exists (k ++ g'). split; [now apply restrict_keys_In in Hg'|]. rewrite project_app; auto. now rewrite E.
    - intros Hl q Hq. apply key_in in Hq as [v Hq]. destruct (HB q v Hq) as (k & g & -> & Hk & Hp). destruct (H k Hp) as (_ & F1 & _). destruct F1 with (k := g) as (g' & Hg' & E).
      + lia.
      + apply restrict_keys_In; [exact Hk|]. exact (in_map fst _ _ Hq).
      + exists (k ++ g'). split; [now apply restrict_keys_In in Hg'|]. rewrite project_app; auto. now rewrite E.
    - intros Ho q Hq Hz.
      assert (forall i0 i1, (if Nat.ltb (List.length s + List.length i0) (List.length s + List.length i1) then s ++ i1 else s ++ i0) = s ++ (if Nat.ltb (List.length i0) (List.length i1) then i1 else i0)) as EI.
      { clear. intros i0 i1. destruct (Nat.ltb_spec (List.length s + List.length i0) (List.length s + List.length i1)), (Nat.ltb_spec (List.length i0) (List.length i1)); auto; lia. }
      rewrite EI in *. set (idx := if Nat.ltb (List.length i0) (List.length i1) then i1 else i0) in *. rewrite app_length in Hq.
      rewrite <- (firstn_skipn n q) in Hz. rewrite <- (firstn_skipn n q). set (k := firstn n q) in *. set (g := skipn n q) in *.
      assert (List.length k = n) as Hk by (unfold k; rewrite firstn_length; unfold n in *; lia). assert (List.length g = List.length idx) as Hg by (unfold g; rewrite skipn_length; unfold n in *; lia).
      rewrite !project_app in * by auto.
      assert (P k) as Hp.
      { destruct (in_dec (list_eq_dec string_dec) (k ++ project idx i1 g) (List.map fst B)) as [Hi|Hi]; [|rewrite lookup_None in Hz by assumption; discriminate].
        apply key_in in Hi as [v Hi]. destruct (HB _ _ Hi) as (k' & g' & E & Hk' & Hp). apply app_len_inj in E as [-> _]; [exact Hp|congruence]. }
      destruct (H k Hp) as (_ & _ & F). cbn zeta in F. fold idx in F. rewrite <- !(lookup_restrict n k) in * by assumption. now apply F.
  Qed.
End Bin.

Section Tree.
  Variable parse : string -> cond.
  Variable psort : cum_how -> bool -> nat -> rframe -> rframe.
  Hypothesis Hps : pandas_sorts psort.

  (** every leaf has rows *)
  Fixpoint mfilled (m : metric) (df : table) : Prop :=
    match m with
    | MLeaf _ w => filter (pfilters parse w) df <> []
    | MOp _ a b w => mfilled a (filter (pfilters parse w) df) /\ mfilled b (filter (pfilters parse w) df)
    | MConstL _ _ a w | MConstR _ a _ w | MSqrt a w | MSq a w => mfilled a (filter (pfilters parse w) df)
    end.
  Fixpoint ofilled (m : otree) (df : table) : Prop :=
    match m with
    | OLeaf m _ => mfilled m df
    | ODist _ c w | OCum _ _ _ c w | OChange _ _ _ _ c w | ODiv _ _ c w | OConstL _ _ c _ w | OConstR _ c _ _ w => ofilled c (filter (pfilters parse w) df)
    | OBin _ a b _ w => ofilled a (filter (pfilters parse w) df) /\ ofilled b (filter (pfilters parse w) df)
    end.
  (** operations that need it get distinct rows of numbers *)
  Fixpoint proper_in (m : otree) (by_ : list string) (df : table) : Prop :=
    match m with
    | OLeaf _ _ => True
    | OCum over _ _ c w | ODiv _ over c w => let df := filter (pfilters parse w) df in
        proper_in c (by_ ++ over) df /\ forall fr, op_compute parse psort c (by_ ++ over) df = Some fr -> proper fr
    | ODist over c w => proper_in c (by_ ++ over) (filter (pfilters parse w) df)
    | OChange p over base inc c w => proper_in c (by_ ++ over) (filter (pfilters parse w) df) /\ op_compute parse psort (OChange p over base inc c w) by_ df <> None
    | OConstL _ _ c _ w | OConstR _ c _ _ w => proper_in c by_ (filter (pfilters parse w) df)
    | OBin _ a b _ w => proper_in a by_ (filter (pfilters parse w) df) /\ proper_in b by_ (filter (pfilters parse w) df)
    end.
  Lemma filter_ne {A} (p : A -> bool) l : filter p l <> [] -> l <> [].
  Proof. intros H ->. now apply H. Qed.
  Lemma mfilled_ne m : forall df, mfilled m df -> df <> [].
  Proof. induction m; intros df H; cbn in H; [now apply filter_ne in H|destruct H as [H _]| | | |]; match goal with IH : _ |- _ => solve [apply IH in H; now apply filter_ne in H] end. Qed.
  Lemma ofilled_ne m : forall df, ofilled m df -> df <> [].
  Proof. induction m; intros df H; cbn in H; [now apply mfilled_ne in H| | | | |destruct H as [H _]| |]; match goal with IH : _ |- _ => solve [apply IH in H; now apply filter_ne in H] end. Qed.

  Lemma compute_lift m : forall s e df, s <> [] -> (forall k, slice s k df <> [] -> mfilled m (slice s k df)) ->
    (forall k, slice s k df <> [] -> restrict (List.length s) k (compute parse m (s ++ e) df) = compute parse m e (slice s k df)) /\
    (forall q, In q (compute parse m (s ++ e) df) -> slice s (firstn (List.length s) (fst q)) df <> []).
  Proof.
    assert (forall s k df, slice s k df <> [] -> List.length k = List.length s) as Hlen.
    { intros s k df H. apply slice_nonempty in H as (r & _ & H). now apply row_key_length in H. }
    assert (forall m w s df, (forall k, slice s k df <> [] -> mfilled m (filter (pfilters parse w) (slice s k df))) ->
            (forall k, slice s k (filter (pfilters parse w) df) <> [] -> mfilled m (slice s k (filter (pfilters parse w) df))) /\
            (forall k, slice s k df <> [] -> slice s k (filter (pfilters parse w) df) <> [])) as Hstep.
    { intros m' w s df H. split; intros k Hk; rewrite filter_slice in *; [apply H; now apply filter_ne in Hk|apply H in Hk; now apply mfilled_ne in Hk]. }
    induction m as [l w|op a IHa b IHb w|op x a IHa w|op a IHa x w|a IHa w|a IHa w]; intros s e df Hs Hf; cbn [compute mfilled] in *.
    - split.
      + intros k Hk. rewrite <- filter_slice. apply leaf_slice. rewrite filter_slice. now apply Hf.
      + intros q Hq. unfold compute_leaf in Hq. apply in_map_iff in Hq as (g & <- & Hg). cbn [fst]. apply group_keys_In in Hg as [[E _]|(_ & r & Hr & Hk)]; [apply app_eq_nil in E as [E _]; contradiction|].
        apply filter_In in Hr as [Hr _]. rewrite row_key_app in Hk. destruct (row_key s r) as [k1|] eqn:E1; [|discriminate]. destruct (row_key e r) as [k2|]; [|discriminate]. injection Hk as <-.
        rewrite firstn_app_len by (now apply row_key_length in E1). apply slice_nonempty. eauto.
    - destruct (Hstep a w s df) as [Fa Na]; [intros k Hk; now apply Hf|]. destruct (Hstep b w s df) as [Fb Nb]; [intros k Hk; now apply Hf|].
      destruct (IHa s e _ Hs Fa) as [Ra Ka]. destruct (IHb s e _ Hs Fb) as [Rb Kb]. split.
      + intros k Hk. rewrite restrict_align_op by (eapply Hlen; eauto). rewrite Ra, Rb by auto. now rewrite filter_slice.
      + intros [q v] Hq. unfold M_SqlLeaf.align in Hq. apply in_map_iff in Hq as (q' & E & Hq). injection E as -> _. apply sort_uniq_In, in_app_or in Hq as [Hq|Hq]; apply in_map_iff in Hq as ([q'' u] & E & Hq); cbn in E; subst q''.
        * apply Ka in Hq. rewrite filter_slice in Hq. now apply filter_ne in Hq.
        * apply Kb in Hq. rewrite filter_slice in Hq. now apply filter_ne in Hq.
    - destruct (Hstep a w s df) as [Fa Na]; [intros k Hk; now apply Hf|]. destruct (IHa s e _ Hs Fa) as [Ra Ka]. split.
      + intros k Hk. rewrite (restrict_mapv _ k (fun _ v => num_op op (Fin x) v)) by (eapply Hlen; eauto). rewrite Ra, filter_slice by auto. reflexivity.
      + intros q Hq. apply in_map_iff in Hq as (q' & <- & Hq). cbn [fst]. apply Ka in Hq. rewrite filter_slice in Hq. now apply filter_ne in Hq.
    - destruct (Hstep a w s df) as [Fa Na]; [intros k Hk; now apply Hf|]. destruct (IHa s e _ Hs Fa) as [Ra Ka]. split.
      + intros k Hk. rewrite (restrict_mapv _ k (fun _ v => num_op op v (Fin x))) by (eapply Hlen; eauto). rewrite Ra, filter_slice by auto. reflexivity.
      + intros q Hq. apply in_map_iff in Hq as (q' & <- & Hq). cbn [fst]. apply Ka in Hq. rewrite filter_slice in Hq. now apply filter_ne in Hq.
    - destruct (Hstep a w s df) as [Fa Na]; [intros k Hk; now apply Hf|]. destruct (IHa s e _ Hs Fa) as [Ra Ka]. split.
      + intros k Hk. rewrite (restrict_mapv _ k (fun _ v => xsqrt v)) by (eapply Hlen; eauto). rewrite Ra, filter_slice by auto. reflexivity.
      + intros q Hq. apply in_map_iff in Hq as (q' & <- & Hq). cbn [fst]. apply Ka in Hq. rewrite filter_slice in Hq. now apply filter_ne in Hq.
    - destruct (Hstep a w s df) as [Fa Na]; [intros k Hk; now apply Hf|]. destruct (IHa s e _ Hs Fa) as [Ra Ka]. split.
      + intros k Hk. rewrite (restrict_mapv _ k (fun _ v => xsq v)) by (eapply Hlen; eauto). rewrite Ra, filter_slice by auto. reflexivity.
      + intros q Hq. apply in_map_iff in Hq as (q' & <- & Hq). cbn [fst]. apply Ka in Hq. rewrite filter_slice in Hq. now apply filter_ne in Hq.
  Qed.

  (** what is known of the slices, and what follows for the whole *)
  Definition parts (m : otree) (s e : list string) (df : table) : Prop :=
    forall k, slice s k df <> [] -> tree_fits parse psort m e (slice s k df) /\ ofilled m (slice s k df) /\ proper_in m e (slice s k df).
  Definition whole (m : otree) (s e : list string) (df : table) : Prop :=
    tree_fits parse psort m (s ++ e) df /\ exists R, op_compute parse psort m (s ++ e) df = Some R /\
    (forall k, slice s k df <> [] -> op_compute parse psort m e (slice s k df) = Some (restrict (List.length s) k R)) /\
    (forall q, In q R -> slice s (firstn (List.length s) (fst q)) df <> []).
  Lemma slice_len s k df : slice s k df <> [] -> List.length k = List.length s.
  Proof. intros H. apply slice_nonempty in H as (r & _ & H). now apply row_key_length in H. Qed.
  Lemma split_from s df (R : rframe) : (forall q, In q R -> slice s (firstn (List.length s) (fst q)) df <> []) ->
    forall q v, In (q, v) R -> exists k g, q = k ++ g /\ List.length k = List.length s /\ slice s k df <> [].
  Proof. intros H q v Hq. apply H in Hq. cbn [fst] in Hq. exists (firstn (List.length s) q), (skipn (List.length s) q). split; [now rewrite firstn_skipn|]. split; [now apply slice_len in Hq|exact Hq]. Qed.
  Lemma from_split s df (R : rframe) : (forall q v, In (q, v) R -> exists k g, q = k ++ g /\ List.length k = List.length s /\ slice s k df <> []) ->
    forall q, In q R -> slice s (firstn (List.length s) (fst q)) df <> [].
  Proof. intros H [q v] Hq. destruct (H q v Hq) as (k & g & -> & Hk & HP). cbn [fst]. now rewrite firstn_app_len. Qed.

  Lemma lift m : forall s e df, s <> [] -> (exists k, slice s k df <> []) -> supported_tree (s ++ e) m -> parts m s e df -> whole m s e df.
  Proof.
    assert (forall c w s e e' df, (forall k, slice s k df <> [] -> tree_fits parse psort c (e ++ e') (filter (pfilters parse w) (slice s k df)) /\ ofilled c (filter (pfilters parse w) (slice s k df)) /\
              proper_in c (e ++ e') (filter (pfilters parse w) (slice s k df))) -> (exists k, slice s k df <> []) ->
            parts c s (e ++ e') (filter (pfilters parse w) df) /\ (forall k, slice s k df <> [] <-> slice s k (filter (pfilters parse w) df) <> []) /\ (exists k, slice s k (filter (pfilters parse w) df) <> [])) as Hstep.
    { intros c w s e e' df H (k0 & Hk0).
      assert (forall k, slice s k df <> [] <-> slice s k (filter (pfilters parse w) df) <> []) as HI.
      { intros k. rewrite filter_slice. split; [intros Hk; destruct (H k Hk) as (_ & Hf & _); now apply ofilled_ne in Hf|apply filter_ne]. }
      split; [|split; [exact HI|]]; [|exists k0; now apply HI]. intros k Hk. rewrite filter_slice in *. apply H. now apply filter_ne in Hk. }
    induction m as [m name|over c IH w|over how asc c IH w|p cond base incl c IH w|d over c IH w|op a IHa b IHb name w|op x c IH name w|op c IH x name w];
      intros s e df Hs He Hsup Hp; unfold parts in Hp; cbn [tree_fits ofilled proper_in] in Hp; cbn zeta in Hp.
    - unfold whole. cbn [tree_fits op_compute]. split; [exact I|]. destruct (compute_lift m s e df Hs) as [H1 H2]; [intros k Hk; now apply Hp|].
      eexists. split; [reflexivity|]. split; [|exact H2]. intros k Hk. now rewrite H1.
    - cbn [supported_tree] in Hsup. destruct Hsup as (_ & Ho & _ & Hsup). rewrite <- app_assoc in Hsup.
      destruct (Hstep c w s e over df) as (Hc & HI & Hex); [intros k Hk; destruct (Hp k Hk) as ([? _] & ? & ?); auto|exact He|].
      destruct (IH s (e ++ over) _ Hs Hex Hsup Hc) as (Hfit & R & ER & Hr & Hk). unfold whole. cbn [tree_fits op_compute]. cbn zeta. rewrite <- app_assoc, ER, app_length. cbn [option_map].
      pose proof (split_from _ _ _ Hk) as Hsp. split; [split; [exact Hfit|]|].
      + intros fr E. injection E as <-. apply (dist_lift _ _ _ _ Hsp). intros k Hk'. apply HI in Hk'. destruct (Hp k Hk') as ([_ Hd] & _). apply HI in Hk'. apply Hd. rewrite <- filter_slice. auto.
      + eexists. split; [reflexivity|]. split.
        * intros k Hk'. pose proof (slice_len _ _ _ Hk') as Hl. apply HI in Hk'. rewrite <- filter_slice, (Hr k Hk'). cbn [option_map]. now rewrite restrict_distribution.
        * intros q Hq. apply distribution_no_slices in Hq as (q' & Hq & Eq). apply Hk in Hq. rewrite Eq in Hq. now apply HI.
    - cbn [supported_tree] in Hsup. destruct Hsup as (_ & Ho & _ & _ & Hov & Hsup). rewrite <- app_assoc in Hsup.
      destruct (Hstep c w s e over df) as (Hc & HI & Hex); [intros k Hk; destruct (Hp k Hk) as ([? _] & ? & [? _]); auto|exact He|].
      destruct (IH s (e ++ over) _ Hs Hex Hsup Hc) as (Hfit & R & ER & Hr & Hk). unfold whole. cbn [tree_fits op_compute]. cbn zeta. rewrite <- app_assoc, ER, app_length. cbn [option_map].
      pose proof (split_from _ _ _ Hk) as Hsp.
      assert (forall k, slice s k (filter (pfilters parse w) df) <> [] -> cum_fits (List.length e) how (restrict (List.length s) k R)) as Hcf.
      { intros k Hk'. apply HI in Hk'. destruct (Hp k Hk') as ([_ Hd] & _). apply HI in Hk'. apply Hd. rewrite <- filter_slice. auto. }
      assert (forall k, slice s k (filter (pfilters parse w) df) <> [] -> proper (restrict (List.length s) k R)) as Hpr.
      { intros k Hk'. apply HI in Hk'. destruct (Hp k Hk') as (_ & _ & [_ Hd]). apply HI in Hk'. apply Hd. rewrite <- filter_slice. auto. }
      split; [split; [exact Hfit|]|].
      + intros fr E. injection E as <-. apply (cum_lift _ _ _ _ Hsp); auto.
      + eexists. split; [reflexivity|]. split.
        * intros k Hk'. pose proof (slice_len _ _ _ Hk') as Hl. apply HI in Hk'. rewrite <- filter_slice, (Hr k Hk'). cbn [option_map]. f_equal. destruct how as [|o|].
          -- symmetry. apply (cum_restrict _ _ (fun k => slice s k (filter (pfilters parse w) df) <> []) R Hsp); auto. intros k1 H1. now apply slice_len in H1. discriminate.
          -- unfold cumulative_distribution. rewrite restrict_sort_by_level', restrict_cumsum, restrict_reindex, restrict_distribution by assumption. reflexivity.
          -- symmetry. apply (cum_restrict _ _ (fun k => slice s k (filter (pfilters parse w) df) <> []) R Hsp); auto. intros k1 H1. now apply slice_len in H1. discriminate.
        * intros q Hq.
          assert (exists q', In q' R /\ fst q' = fst q) as (q' & Hq' & Eq).
          { unfold cumulative_distribution in Hq. unfold sort_by_level in Hq. apply in_flat_map in Hq as (g & _ & Hq). apply filter_In in Hq as [Hq _]. unfold group_cumsum in Hq.
            apply L_Slices2.cumsum_from_keys in Hq as (q1 & Hq & E1).
            assert (In q1 (distribution (List.length s + List.length e) R)) as Hd.
            { pose proof (cum_lift _ (List.length e) _ _ Hsp how Hex Hcf) as [HfR _]. pose proof (dist_fin _ (List.length e) _ _ Hsp Hpr HfR) as HdR.
              destruct how as [|o|].
              - destruct (Hps CumOver asc (List.length s + List.length e)%nat (distribution (List.length s + List.length e) R)) as [Pa _]; [discriminate|]. now apply (Permutation_in _ Pa).
              - unfold reindex_order in Hq. apply filter_In in Hq as [Hq _]. apply in_flat_map in Hq as (l & _ & Hq). now apply filter_In in Hq.
              - destruct (Hps CumValues asc (List.length s + List.length e)%nat (distribution (List.length s + List.length e) R)) as [Pa _]; [intros _ r Hr'; destruct (HdR r Hr') as (x & Ex & _); eauto|]. now apply (Permutation_in _ Pa). }
            apply distribution_no_slices in Hd as (q2 & H2 & E2). exists q2. split; [exact H2|congruence]. }
          apply Hk in Hq'. rewrite Eq in Hq'. now apply HI.
    - cbn [supported_tree] in Hsup. destruct Hsup as (_ & Ho & Hb & Hsup). rewrite <- app_assoc in Hsup.
      destruct (Hstep c w s e cond df) as (Hc & HI & Hex); [intros k Hk; destruct (Hp k Hk) as ([? _] & ? & [? _]); auto|exact He|].
      destruct (IH s (e ++ cond) _ Hs Hex Hsup Hc) as (Hfit & R & ER & Hr & Hk). unfold whole. cbn [tree_fits op_compute]. cbn zeta. rewrite <- app_assoc, ER, app_length.
      pose proof (split_from _ _ _ Hk) as Hsp.
      assert (forall k, slice s k (filter (pfilters parse w) df) <> [] -> change_fits p (List.length e) base (restrict (List.length s) k R)) as Hcf.
      { intros k Hk'. apply HI in Hk'. destruct (Hp k Hk') as ([_ Hd] & _). apply HI in Hk'. apply Hd. rewrite <- filter_slice. auto. }
      split; [split; [exact Hfit|]|].
      + intros fr E. injection E as <-. apply (change_lift _ _ _ _ Hsp); auto.
      + destruct Hex as (k0 & Hk0).
        assert (forall k, slice s k (filter (pfilters parse w) df) <> [] -> exists r Rr, (if p then percent_change else absolute_change) (List.length e) (List.length cond) base incl (restrict (List.length s) k R) = Some r /\
                  (if p then percent_change else absolute_change) (List.length s + List.length e)%nat (List.length cond) base incl R = Some Rr /\ restrict (List.length s) k Rr = r) as Hop.
        { intros k Hk'. pose proof (slice_len _ _ _ Hk') as Hl. pose proof (Hcf k Hk') as [Hne _]. pose proof (Hr k Hk') as Ek. apply HI in Hk'. destruct (Hp k Hk') as (_ & _ & _ & HN). cbn [op_compute] in HN. rewrite <- filter_slice, Ek in HN.
          destruct ((if p then percent_change else absolute_change) (List.length e) (List.length cond) base incl (restrict (List.length s) k R)) as [r|] eqn:E; [|congruence]. exists r.
          assert (exists R0, (if p then percent_change else absolute_change) (List.length s + List.length e)%nat (List.length cond) base incl R = Some R0 /\ restrict (List.length s) k R0 = r) as (R0 & E0 & E1); [|eauto].
          destruct p; apply slicewise_compare with (m := List.length e); auto. }
        destruct (Hop k0 Hk0) as (_ & R0 & _ & E0 & _). rewrite E0. eexists. split; [reflexivity|]. split.
        * intros k Hk'. apply HI in Hk'. destruct (Hop k Hk') as (r & R1 & E1 & E2 & E3). rewrite <- filter_slice, (Hr k Hk'), E1. rewrite E0 in E2. injection E2 as <-. now rewrite E3.
        * intros q Hq. assert (exists q', In q' R /\ firstn (List.length s + List.length e) (fst q') = firstn (List.length s + List.length e) (fst q)) as (q' & Hq' & Eq).
          { assert (List.length s + List.length e <> 0)%nat as Hn0 by (destruct s; [congruence|discriminate]). destruct p; eapply (no_slices_compare _ _ _ _ _ _ _ _ Hn0 E0 Hq). }
          apply Hk in Hq'. apply HI. apply (f_equal (firstn (List.length s))) in Eq. rewrite !firstn_firstn, !Nat.min_l in Eq by lia. now rewrite Eq in Hq'.
    - cbn [supported_tree] in Hsup. destruct Hsup as (_ & Ho & _ & _ & Hsup). rewrite <- app_assoc in Hsup.
      destruct (Hstep c w s e over df) as (Hc & HI & Hex); [intros k Hk; destruct (Hp k Hk) as ([? _] & ? & [? _]); auto|exact He|].
      destruct (IH s (e ++ over) _ Hs Hex Hsup Hc) as (Hfit & R & ER & Hr & Hk). unfold whole. cbn [tree_fits op_compute]. cbn zeta. rewrite <- app_assoc, ER, app_length. cbn [option_map].
      pose proof (split_from _ _ _ Hk) as Hsp.
      assert (forall k, slice s k (filter (pfilters parse w) df) <> [] -> div_fits d (List.length e) (restrict (List.length s) k R)) as Hcf.
      { intros k Hk'. apply HI in Hk'. destruct (Hp k Hk') as ([_ Hd] & _). apply HI in Hk'. apply Hd. rewrite <- filter_slice. auto. }
      assert (forall k, slice s k (filter (pfilters parse w) df) <> [] -> proper (restrict (List.length s) k R)) as Hpr.
      { intros k Hk'. apply HI in Hk'. destruct (Hp k Hk') as (_ & _ & [_ Hd]). apply HI in Hk'. apply Hd. rewrite <- filter_slice. auto. }
      pose proof (div_lift _ (List.length e) _ _ Hsp d Hex Hcf) as HfR.
      split; [split; [exact Hfit|]|].
      + intros fr E. injection E as <-. exact HfR.
      + assert (forall agg k, slice s k (filter (pfilters parse w) df) <> [] -> groupby_level (List.length e) agg (distribution (List.length e) (restrict (List.length s) k R)) =
                  restrict (List.length s) k (groupby_level (List.length s + List.length e) agg (distribution (List.length s + List.length e) R))) as Hgb.
        { intros agg k Hk'. pose proof (slice_len _ _ _ Hk') as Hl. pose proof (Hcf k Hk') as [Hne _]. rewrite restrict_groupby by auto using restrict_nil_dist. now rewrite restrict_distribution. }
        assert (forall (agg : list num -> num) q, In q (groupby_level (List.length s + List.length e) agg (distribution (List.length s + List.length e) R)) -> slice s (firstn (List.length s) (fst q)) df <> []) as Hgk.
        { intros agg q Hq. assert (List.length s + List.length e <> 0)%nat as Hn0 by (destruct s; [congruence|discriminate]). apply groupby_level_no_slices in Hq as (q1 & Hq1 & E1); [|exact Hn0].
          apply distribution_no_slices in Hq1 as (q2 & Hq2 & E2). apply Hk in Hq2. rewrite E2 in Hq2. apply HI. apply (f_equal (firstn (List.length s))) in E1. rewrite !firstn_firstn, !Nat.min_l in E1 by lia. now rewrite E1 in Hq2. }
        assert (Forall (fun r => no_inf (snd r)) R) as HiR.
        { apply Forall_forall. intros [q v] Hq. destruct (at_slice _ _ _ Hsp q v Hq) as (k & g & -> & _ & HP & Hin). destruct (Hpr k HP) as [H1 _]. rewrite Forall_forall in H1. exact (H1 _ Hin). }
        eexists. split; [reflexivity|]. destruct d as [| |t|share].
        * split; [|apply Hgk]. intros k Hk'. apply HI in Hk'. rewrite <- filter_slice, (Hr k Hk'). cbn [option_map]. f_equal. now apply Hgb.
        * split; [|apply Hgk]. intros k Hk'. apply HI in Hk'. rewrite <- filter_slice, (Hr k Hk'). cbn [option_map]. f_equal. now apply Hgb.
        * rewrite (top_k_groupby t _ R) by (auto; apply HfR). split; [|apply Hgk]. intros k Hk'. apply HI in Hk'. rewrite <- filter_slice, (Hr k Hk'). cbn [option_map]. f_equal.
          rewrite top_k_groupby; [now apply Hgb|apply (Hcf k Hk')|now apply Hcf|apply (Hpr k Hk')].
        * split; [|apply Hgk]. intros k Hk'. apply HI in Hk'. rewrite <- filter_slice, (Hr k Hk'). cbn [option_map]. f_equal. now apply Hgb.
    - cbn [supported_tree] in Hsup. destruct Hsup as (_ & Sa & Sb & _). pose proof (nodup_index _ _ Sa) as Na. pose proof (nodup_index _ _ Sb) as Nb. rewrite <- !app_assoc in Na, Nb.
      destruct (Hstep a w s e [] df) as (Ca & HI & Hex); [intros k Hk; rewrite app_nil_r; destruct (Hp k Hk) as ((? & _) & (? & _) & (? & _)); auto|exact He|].
      destruct (Hstep b w s e [] df) as (Cb & _ & _); [intros k Hk; rewrite app_nil_r; destruct (Hp k Hk) as ((_ & ? & _) & (_ & ?) & (_ & ?)); auto|exact He|]. rewrite app_nil_r in Ca, Cb.
      destruct (IHa s e _ Hs Hex Sa Ca) as (Fa & A & EA & Ra & Ka). destruct (IHb s e _ Hs Hex Sb Cb) as (Fb & B & EB & Rb & Kb).
      pose proof (split_from _ _ _ Ka) as Pa. pose proof (split_from _ _ _ Kb) as Pb.
      unfold whole. cbn [tree_fits op_compute]. cbn zeta. rewrite EA, EB, <- !app_assoc. split; [split; [exact Fa|split; [exact Fb|]]|].
      + intros fa fb E1 E2. injection E1 as <-. injection E2 as <-. apply (bin_lift _ _ _ _ _ _ op Na Nb Pa Pb). intros k Hk'. pose proof (Ra k Hk') as E1. pose proof (Rb k Hk') as E2. apply HI in Hk'.
        destruct (Hp k Hk') as ((_ & _ & Hd) & _). rewrite filter_slice in E1, E2. now apply Hd.
      + eexists. split; [reflexivity|]. split.
        * intros k Hk'. pose proof (slice_len _ _ _ Hk') as Hl. apply HI in Hk'. rewrite <- filter_slice, (Ra k Hk'), (Rb k Hk'). f_equal. symmetry. now apply bin_restrict.
        * intros q Hq. apply HI. revert q Hq. apply from_split. intros q v Hq. now apply (bin_keys s (e ++ extra_idx a) (e ++ extra_idx b) _ A B op Pa Pb q v).
    - cbn [supported_tree] in Hsup. destruct Hsup as (_ & Sc).
      destruct (Hstep c w s e [] df) as (Cc & HI & Hex); [intros k Hk; rewrite app_nil_r; destruct (Hp k Hk) as ((? & _) & ? & ?); auto|exact He|]. rewrite app_nil_r in Cc.
      destruct (IH s e _ Hs Hex Sc Cc) as (Fc & R & ER & Hr & Hk). unfold whole. cbn [tree_fits op_compute]. cbn zeta. rewrite ER. cbn [option_map]. split; [split; [exact Fc|]|].
      + intros fr E Eo q Hq. injection E as <-. destruct (at_slice _ _ _ (split_from _ _ _ Hk) _ _ Hq) as (k & g & -> & _ & HP & Hin). pose proof (Hr k HP) as E1. apply HI in HP. destruct (Hp k HP) as ((_ & Hd) & _).
        rewrite filter_slice in E1. exact (Hd _ E1 Eo _ Hin).
      + eexists. split; [reflexivity|]. split.
        * intros k Hk'. pose proof (slice_len _ _ _ Hk') as Hl. apply HI in Hk'. rewrite <- filter_slice, (Hr k Hk'). cbn [option_map]. f_equal. symmetry. now apply (restrict_mapv _ k (fun _ v => num_op op (Fin x) v)).
        * intros q Hq. apply in_map_iff in Hq as (q' & <- & Hq). cbn [fst]. apply HI. now apply Hk.
    - cbn [supported_tree] in Hsup. destruct Hsup as (_ & Sc).
      destruct (Hstep c w s e [] df) as (Cc & HI & Hex); [intros k Hk; rewrite app_nil_r; destruct (Hp k Hk) as ((? & _) & ? & ?); auto|exact He|]. rewrite app_nil_r in Cc.
      destruct (IH s e _ Hs Hex Sc Cc) as (Fc & R & ER & Hr & Hk). unfold whole. cbn [tree_fits op_compute]. cbn zeta. rewrite ER. cbn [option_map]. split; [split; [exact Fc|]|].
      + intros fr E Eo Ex q v Hq. injection E as <-. destruct (at_slice _ _ _ (split_from _ _ _ Hk) _ _ Hq) as (k & g & -> & _ & HP & Hin). pose proof (Hr k HP) as E1. apply HI in HP. destruct (Hp k HP) as ((_ & Hd) & _).
        rewrite filter_slice in E1. exact (Hd _ E1 Eo Ex _ _ Hin).
      + eexists. split; [reflexivity|]. split.
        * intros k Hk'. pose proof (slice_len _ _ _ Hk') as Hl. apply HI in Hk'. rewrite <- filter_slice, (Hr k Hk'). cbn [option_map]. f_equal. symmetry. now apply (restrict_mapv _ k (fun _ v => num_op op v (Fin x))).
        * intros q Hq. apply in_map_iff in Hq as (q' & <- & Hq). cbn [fst]. apply HI. now apply Hk.
  Qed.
End Tree.
