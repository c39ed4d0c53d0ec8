From Coq Require Import Reals List Bool String Arith Lia Lra.
From Verif Require Import M_Num M_Frame M_Slices M_Jackknife S_Jackknife L_Frame L_OpsB L_Slices L_Jackknife L_Jackknife2 M_JackCache.
Import ListNotations.
Open Scope nat_scope.
Open Scope list_scope.

Section Valid.
Variable sat : string -> drow -> bool.
Variable df : table.
Definition right_value (k : lkey) (v : rframe) : Prop :=
  k_raw k = KRound -> v = compute_leaf (agg_of (k_leaf k)) (k_split k) (query sat df (k_where k)).
Definition all_right (c : lcache) : Prop := forall k v, In (k, v) c -> right_value k v.

Lemma get_In k c v : get k c = Some v -> exists k', In (k', v) c /\ lkey_eqb k' k = true.
Proof.
  induction c as [|[k' v'] c IH]; simpl; [discriminate|]. destruct (lkey_eqb k' k) eqn:E; intros H.
  - injection H as <-. eauto.
  - destruct (IH H) as [k0 [H1 H2]]. eauto.
Qed.
Lemma subset_incl a b : subset a b = true <-> incl a b.
Proof.
  unfold subset. rewrite forallb_forall. split; intros H x Hx; specialize (H x Hx); [|]; destruct (in_dec string_dec x b); auto; discriminate.
Qed.
Lemma lkey_eqb_spec a b : lkey_eqb a b = true -> k_leaf a = k_leaf b /\ incl (k_where a) (k_where b) /\ incl (k_where b) (k_where a) /\ k_split a = k_split b /\ k_raw a = k_raw b.
Proof.
  unfold lkey_eqb. rewrite !andb_true_iff. intros [[[H1 [H2 H3]] H4] H5].
  destruct (leaf_eq_dec _ _); [|discriminate]. destruct (list_eq_dec _ _ _); [|discriminate]. destruct (raw_eq_dec _ _); [|discriminate].
  rewrite subset_incl in H2, H3. auto.
Qed.
Lemma query_set a b : incl a b -> incl b a -> query sat df a = query sat df b.
Proof.
  intros H1 H2. unfold query. apply filter_ext. intros r.
  assert (forall x y, incl x y -> forallb (fun c => sat c r) y = true -> forallb (fun c => sat c r) x = true) as H.
  { intros x y Hi. rewrite !forallb_forall. auto. }
  destruct (forallb (fun c => sat c r) a) eqn:Ea, (forallb (fun c => sat c r) b) eqn:Eb; auto.
  - apply (H b a) in Ea; auto. congruence.
  - apply (H a b) in Eb; auto. congruence.
Qed.
Lemma get_right c l w s v : all_right c -> get (LKey l w s KRound) c = Some v -> v = compute_leaf (agg_of l) s (query sat df w).
Proof.
  intros H Hg. apply get_In in Hg as [k' [Hin E]]. apply lkey_eqb_spec in E as [E1 [E2 [E3 [E4 E5]]]]. cbn in *.
  rewrite (H _ _ Hin E5), E1, E4, (query_set _ _ E2 E3). reflexivity.
Qed.
Lemma compute_cached_right l w s c : all_right c -> fst (compute_cached sat df l w s c) = compute_leaf (agg_of l) s (query sat df w) /\ all_right (snd (compute_cached sat df l w s c)).
Proof.
  intros H. unfold compute_cached. destruct (get _ c) as [v|] eqn:E; cbn.
  - split; auto. eapply get_right; eauto.
  - split; auto. intros k v [F|Hin]; [|now apply H]. injection F as <- <-. intros _. reflexivity.
Qed.
(** leaves Jackknife may touch: sums without infinities and plain counts *)
Definition harmless (k : lkey) : Prop := sum_or_count (agg_of (k_leaf k)) df.

Lemma is_prefix_spec a b : is_prefix a b = true -> exists e, b = a ++ e.
Proof. unfold is_prefix. destruct (list_eq_dec _ _ _) as [E|]; [|discriminate]. intros _. exists (skipn (List.length a) b). rewrite <- E at 1. now rewrite firstn_skipn. Qed.
Lemma precompute_one_right split_by unit slices e c :
  NoDup (k_split (fst e)) -> harmless (fst e) -> has_labels [unit] df -> k_raw (fst e) = KRound -> right_value (fst e) (snd e) -> all_right c ->
  all_right (precompute_one split_by unit slices e c).
Proof.
  destruct e as [k bucket]. cbn [fst snd]. intros HN Hh Hl Hraw Hr Hc. unfold precompute_one.
  destruct (is_prefix (split_by ++ [unit]) (k_split k)) eqn:E; auto. apply is_prefix_spec in E as [e E]. rewrite <- app_assoc in E. cbn [app] in E.
  assert (filter (fun x => if string_dec x unit then false else true) (k_split k) = split_by ++ e) as EF.
  { rewrite E in *. apply NoDup_remove_2 in HN. rewrite filter_app. cbn [filter]. destruct (string_dec unit unit); [|congruence].
    assert (forall l, ~ In unit l -> filter (fun x => if string_dec x unit then false else true) l = l) as H.
    { induction l as [|x l IH]; intros Hni; auto. cbn [filter]. destruct (string_dec x unit) as [->|]; [destruct Hni; now left|]. f_equal. apply IH. intros ?; apply Hni; now right. }
    rewrite in_app_iff in HN. rewrite !H by tauto. reflexivity. }
  rewrite EF.
  assert (all_right (put (LKey (k_leaf k) (k_where k) (split_by ++ e) (k_raw k)) (bucket_total (List.length split_by) (k_split k) bucket) c)) as H1.
  { intros k' v [F|Hin]; [|now apply Hc]. injection F as <- <-. intros _. cbn [k_leaf k_split k_where].
    rewrite (Hr Hraw), E.
    pose proof (total_leaf_eq split_by unit (agg_of (k_leaf k)) e (query sat df (k_where k))) as HT. unfold total_leaf in HT.
    rewrite firstn_app_len, skipn_app_len in HT by reflexivity. cbn [app] in HT. apply HT.
    - eapply sum_or_count_incl; [exact Hh|]. apply filter_incl.
    - apply Forall_forall. intros r Hr'. apply filter_In in Hr' as [Hr' _]. unfold has_labels in Hl. rewrite Forall_forall in Hl. apply (Hl r Hr'). now left. }
  destruct (get _ _); auto. intros k' v [F|Hin]; [|now apply H1]. injection F as <- <-. intros F. discriminate F.
Qed.
Lemma precompute_all_right w leaves split_by unit c : has_labels [unit] df -> all_right c ->
  (forall k v, In (k, v) c -> k_raw k = KRound -> is_prefix (split_by ++ [unit]) (k_split k) = true -> harmless k /\ NoDup (k_split k)) ->
  (forall l wl lv, In (l, wl, lv) leaves -> sum_or_count (agg_of l) df /\ NoDup (split_by ++ [unit] ++ lv)) ->
  all_right (jackknife_precompute sat df w leaves split_by unit c).
Proof.
  intros Hl Hc Hh Hlv. unfold jackknife_precompute.
  set (good := fun c : lcache => all_right c /\ forall k v, In (k, v) c -> k_raw k = KRound -> is_prefix (split_by ++ [unit]) (k_split k) = true -> harmless k /\ NoDup (k_split k)).
  assert (forall ls c, incl ls leaves -> good c -> good (fold_left (fun c q => let '(l, wl, lv) := q in snd (compute_cached sat df l (w ++ wl) (split_by ++ [unit] ++ lv) c)) ls c)) as HF.
  { induction ls as [|[[l wl] lv] ls IH]; intros c0 Hi [H1 H2]; [split; auto|]. cbn [fold_left]. apply IH; [intros z Hz; apply Hi; now right|]. split.
    - now apply compute_cached_right.
    - unfold compute_cached. destruct (get _ c0); auto. cbn [snd]. intros k v [F|Hin]; [|eapply H2; eauto]. injection F as <- <-. intros _ _.
      exact (Hlv l wl lv (Hi _ (or_introl eq_refl))). }
  destruct (HF leaves c (incl_refl _) (conj Hc Hh)) as [G1 G2].
  set (c1 := fold_left _ leaves c) in *.
  assert (forall es c0, incl es (filter (fun e => is_round (fst e)) c1) -> all_right c0 -> all_right (fold_left (fun c e => precompute_one split_by unit (query sat df w) e c) es c0)) as HE.
  { induction es as [|[k v] es IH]; intros c0 Hi H0; auto. cbn [fold_left]. apply IH; [intros z Hz; apply Hi; now right|].
    assert (In (k, v) (filter (fun e => is_round (fst e)) c1)) as Hin by (apply Hi; now left). apply filter_In in Hin as [Hin Hraw].
    assert (k_raw k = KRound) as Hk by (unfold is_round in Hraw; cbn [fst] in Hraw; destruct (k_raw k); [reflexivity|discriminate]).
    destruct (is_prefix (split_by ++ [unit]) (k_split k)) eqn:EP.
    - destruct (G2 k v Hin Hk EP). apply precompute_one_right; auto; cbn; now apply G1.
    - unfold precompute_one. now rewrite EP. }
  now apply HE.
Qed.
(** *** leave-one-out results *)
Lemma lkey_eqb_true a b : k_leaf a = k_leaf b -> incl (k_where a) (k_where b) -> incl (k_where b) (k_where a) -> k_split a = k_split b -> k_raw a = k_raw b -> lkey_eqb a b = true.
Proof.
  intros H1 H2 H3 H4 H5. unfold lkey_eqb. rewrite H1, H4, H5. apply subset_incl in H2. apply subset_incl in H3. rewrite H2, H3.
  destruct (leaf_eq_dec _ _); [|congruence]. destruct (list_eq_dec _ _ _); [|congruence]. destruct (raw_eq_dec _ _); [reflexivity|congruence].
Qed.
Lemma get_put_kept k k' v c : get k c <> None -> get k (put k' v c) <> None.
Proof. intros H. cbn. destruct (lkey_eqb k' k); [discriminate|exact H]. Qed.
Definition loo_value (split_by : list string) (unit : string) (slices : table) (k : lkey) (v : rframe) : Prop :=
  v = loo_leaf (List.length split_by) slices (agg_of (k_leaf k)) (k_split k) (query sat df (k_where k)).
Definition all_loo (split_by : list string) (unit : string) (slices : table) (c : lcache) : Prop :=
  forall k v, In (k, v) c -> k_raw k = KLoo unit -> loo_value split_by unit slices k v.
Lemma precompute_one_loo split_by unit slices e c : k_raw (fst e) = KRound -> right_value (fst e) (snd e) ->
  all_loo split_by unit slices c -> all_loo split_by unit slices (precompute_one split_by unit slices e c).
Proof.
  destruct e as [k bucket]. cbn [fst snd]. intros Hraw Hr Hc. unfold precompute_one.
  destruct (is_prefix (split_by ++ [unit]) (k_split k)); auto.
  assert (all_loo split_by unit slices (put (LKey (k_leaf k) (k_where k) (filter (fun x => if string_dec x unit then false else true) (k_split k)) (k_raw k)) (bucket_total (List.length split_by) (k_split k) bucket) c)) as H1.
  { intros k' v [F|Hin]; [|now apply Hc]. injection F as <- <-. cbn. rewrite Hraw. discriminate. }
  destruct (get _ _); auto. intros k' v [F|Hin]; [|now apply H1]. injection F as <- <-. intros _. unfold loo_value, loo_leaf. cbn [k_leaf k_split k_where].
  rewrite (Hr Hraw). reflexivity.
Qed.
Lemma precompute_one_kept split_by unit slices e c k : get k c <> None -> get k (precompute_one split_by unit slices e c) <> None.
Proof.
  destruct e as [k0 bucket]. intros H. unfold precompute_one. destruct (is_prefix _ _); auto.
  destruct (get (LKey _ _ _ (KLoo unit)) _); [|apply get_put_kept]; now apply get_put_kept.
Qed.
Lemma precompute_one_there split_by unit slices k bucket c l w : k_leaf k = l -> incl (k_where k) w -> incl w (k_where k) ->
  is_prefix (split_by ++ [unit]) (k_split k) = true ->
  get (LKey l w (k_split k) (KLoo unit)) (precompute_one split_by unit slices (k, bucket) c) <> None.
Proof.
  intros <- H1 H2 Hp. unfold precompute_one. rewrite Hp.
  assert (forall a b, subset a b = true -> incl a b) as HS by (intros; now apply subset_incl).
  destruct (get (LKey (k_leaf k) (k_where k) (k_split k) (KLoo unit)) _) as [v|] eqn:E.
  - intros F. apply get_In in E as [k' [Hin E]]. apply lkey_eqb_spec in E as [E1 [E2 [E3 [E4 E5]]]]. cbn in E1, E2, E3, E4, E5.
    match type of F with get ?K ?C = None => set (kk := K) in F; set (cc := C) in * end. clearbody cc.
    assert (lkey_eqb k' kk = true) as EK by (apply lkey_eqb_true; cbn; auto; eapply incl_tran; eauto).
    clear - Hin F EK. induction cc as [|[k0 v0] cc IH]; [inversion Hin|]. cbn in F. destruct (lkey_eqb k0 kk) eqn:E0; [discriminate|].
    destruct Hin as [G|Hin]; [injection G as -> ->; congruence|]. now apply IH.
  - cbn [get put]. rewrite lkey_eqb_true by (cbn; auto). discriminate.
Qed.
Lemma get_there k v c k' : In (k, v) c -> lkey_eqb k k' = true -> get k' c <> None.
Proof.
  intros Hin E. induction c as [|[k0 v0] c IH]; [inversion Hin|]. cbn. destruct (lkey_eqb k0 k') eqn:E0; [discriminate|].
  destruct Hin as [G|Hin]; [injection G as -> ->; congruence|]. now apply IH.
Qed.
Lemma precompute_loo w leaves split_by unit c l wl lv : all_right c ->
  (forall k v, In (k, v) c -> k_raw k <> KLoo unit) -> In (l, wl, lv) leaves ->
  get (LKey l (w ++ wl) (split_by ++ unit :: lv) (KLoo unit)) (jackknife_precompute sat df w leaves split_by unit c)
  = Some (loo_leaf (List.length split_by) (query sat df w) (agg_of l) (split_by ++ unit :: lv) (query sat df (w ++ wl))).
Proof.
  intros Hc Hn Hin. unfold jackknife_precompute.
  set (good := fun c : lcache => all_right c /\ (forall k v, In (k, v) c -> k_raw k <> KLoo unit)).
  assert (forall ls c, good c -> good (fold_left (fun c q => let '(l, wl, lv) := q in snd (compute_cached sat df l (w ++ wl) (split_by ++ [unit] ++ lv) c)) ls c)) as HG.
  { induction ls as [|[[l' wl'] lv'] ls IH]; intros c0 [H1 H2]; [split; auto|]. cbn [fold_left]. apply IH. split.
    - now apply compute_cached_right.
    - unfold compute_cached. destruct (get _ c0); auto. cbn [snd]. intros k v [F|Hi]; [|eapply H2; eauto]. injection F as <- <-. discriminate. }
  assert (forall ls c k, get k c <> None -> get k (fold_left (fun c q => let '(l, wl, lv) := q in snd (compute_cached sat df l (w ++ wl) (split_by ++ [unit] ++ lv) c)) ls c) <> None) as HK.
  { induction ls as [|[[l' wl'] lv'] ls IH]; intros c0 k H; [auto|]. cbn [fold_left]. apply IH. unfold compute_cached. destruct (get (LKey l' _ _ _) c0); auto. now apply get_put_kept. }
  assert (forall ls c, In (l, wl, lv) ls -> get (LKey l (w ++ wl) (split_by ++ unit :: lv) KRound) (fold_left (fun c q => let '(l, wl, lv) := q in snd (compute_cached sat df l (w ++ wl) (split_by ++ [unit] ++ lv) c)) ls c) <> None) as HT.
  { induction ls as [|[[l' wl'] lv'] ls IH]; intros c0 H; [inversion H|]. cbn [fold_left]. destruct H as [F|H]; [|now apply IH]. injection F as -> -> ->.
    apply HK. unfold compute_cached. cbn [app]. destruct (get _ c0) eqn:E; cbn [snd]; [congruence|]. cbn. rewrite lkey_eqb_true by (cbn; auto using incl_refl). discriminate. }
  destruct (HG leaves c (conj Hc Hn)) as [G1 G2]. specialize (HT leaves c Hin).
  set (c1 := fold_left _ leaves c) in *. clearbody c1. clear HG HK Hc Hn.
  assert (forall es c0, (forall e, In e es -> k_raw (fst e) = KRound /\ right_value (fst e) (snd e)) -> all_loo split_by unit (query sat df w) c0 ->
    all_loo split_by unit (query sat df w) (fold_left (fun c e => precompute_one split_by unit (query sat df w) e c) es c0)) as HA.
  { induction es as [|e es IH]; intros c0 He H0; auto. cbn [fold_left]. apply IH; [intros; apply He; now right|]. destruct (He e (or_introl eq_refl)). now apply precompute_one_loo. }
  assert (forall es c0 k, get k c0 <> None -> get k (fold_left (fun c e => precompute_one split_by unit (query sat df w) e c) es c0) <> None) as HK.
  { induction es as [|e es IH]; intros c0 k H; auto. cbn [fold_left]. apply IH. now apply precompute_one_kept. }
  assert (forall es c0 k v, In (k, v) es -> lkey_eqb k (LKey l (w ++ wl) (split_by ++ unit :: lv) KRound) = true ->
    get (LKey l (w ++ wl) (split_by ++ unit :: lv) (KLoo unit)) (fold_left (fun c e => precompute_one split_by unit (query sat df w) e c) es c0) <> None) as HP.
  { induction es as [|e es IH]; intros c0 k v H E; [inversion H|]. cbn [fold_left]. destruct H as [->|H]; [|now apply (IH _ k v)].
    apply HK. apply lkey_eqb_spec in E as [E1 [E2 [E3 [E4 E5]]]]. cbn in E1, E2, E3, E4, E5. rewrite <- E4. apply precompute_one_there; auto.
    rewrite E4. unfold is_prefix. change (unit :: lv) with ([unit] ++ lv). rewrite app_assoc, firstn_app_len by reflexivity. destruct (list_eq_dec _ _ _); congruence. }
  destruct (get _ c1) as [v1|] eqn:E1; [|congruence]. apply get_In in E1 as [k1 [Hk1 E1]].
  assert (k_raw k1 = KRound) as HR by (apply lkey_eqb_spec in E1; cbn in E1; tauto).
  assert (In (k1, v1) (filter (fun e => is_round (fst e)) c1)) as Hf by (apply filter_In; split; auto; unfold is_round; cbn; now rewrite HR).
  pose proof (HP _ c1 k1 v1 Hf E1) as HS.
  assert (all_loo split_by unit (query sat df w) (fold_left (fun c e => precompute_one split_by unit (query sat df w) e c) (filter (fun e => is_round (fst e)) c1) c1)) as HL.
  { apply HA.
    - intros [k v] He. apply filter_In in He as [He Hr]. unfold is_round in Hr. cbn in *. split; [now destruct (k_raw k)|]. now apply G1.
    - intros k v Hi Hr. exfalso. exact (G2 k v Hi Hr). }
  destruct (get _ _) as [v|] eqn:E; [|congruence]. f_equal. apply get_In in E as [k [Hk E]]. apply lkey_eqb_spec in E as [F1 [F2 [F3 [F4 F5]]]]. cbn in F1, F2, F3, F4, F5.
  rewrite (HL k v Hk F5), F1, F4, (query_set _ _ F2 F3). reflexivity.
Qed.
End Valid.
