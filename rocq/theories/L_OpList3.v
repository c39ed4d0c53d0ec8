(** An operation over several columns, one column of the result (C74). *)
From Coq Require Import Reals List Bool String Arith Permutation Sorted Lia Lra.
From Verif Require Import M_Num M_Frame S_Ops M_Ops L_Frame L_OpsA L_OpsB L_OpsC L_Jackknife3 L_Slices L_SqlOps3 L_SqlOps4 L_SqlLeaf2 M_SqlOps M_SqlList M_OpList S_OpList L_OpList1 L_OpList2.
Import ListNotations.
Open Scope list_scope.

Notation solid_row := (fun r : list string * num => negb (is_nan (snd r))) (only parsing).
Definition solid (n : nat) (g : list string) (l : rframe) : rframe := filter (fun r => negb (is_nan (snd r))) (S_Ops.group n g l).

Lemma group_def n g (l : rframe) : S_Ops.group n g l = filter (fun r => key_eqb (firstn n (fst r)) g) l. Proof. reflexivity. Qed.
(** ** The running sum at a key *)
Fixpoint upto (k : list string) (acc : list num) (l : rframe) : num :=
  match l with [] => NaN | (k', v) :: l' => if key_eqb k' k then xsum (acc ++ [v]) else upto k (acc ++ [v]) l' end.
Lemma upto_none k : forall l acc, ~ In k (List.map fst l) -> upto k acc l = NaN.
Proof. induction l as [|[k' v] l IH]; intros acc H; cbn; auto. unfold key_eqb. destruct list_eq_dec as [->|]; [destruct H; now left|]. apply IH. intros H'. apply H. now right. Qed.
Lemma xsum_skip a v : xsum (filter (fun x => negb (is_nan x)) a ++ [v]) = xsum (a ++ [v]).
Proof. induction a as [|x a IH]; auto. cbn [filter app]. destruct (is_nan x) eqn:E; cbn [negb app]; rewrite ?xsum_cons, ?E; auto. now rewrite IH. Qed.
Lemma solid_in n g l r : In r (solid n g l) -> In r l /\ firstn n (fst r) = g /\ is_nan (snd r) = false.
Proof. unfold solid. rewrite ?group_def. intros H. apply filter_In in H as [H1 H2]. apply filter_In in H1 as [H1 H3]. apply negb_true_iff in H2. apply key_eqb_eq in H3. auto. Qed.
Lemma cum_upto n k l : NoDup (List.map fst l) -> forall seen,
  lookup k (cumsum_from n seen l) = upto k (filter (fun x => negb (is_nan x)) (vals n (firstn n k) seen)) (solid n (firstn n k) l).
Proof.
  induction l as [|[k' v] l IH]; intros Hd seen; [reflexivity|]. inversion Hd as [|? ? Hk Hd']; subst. specialize (IH Hd').
  cbn [cumsum_from lookup fst snd]. unfold solid. rewrite ?group_def. cbn [filter fst].
  assert (vals n (firstn n k) (seen ++ [(k', v)]) = vals n (firstn n k) seen ++ if key_eqb (firstn n k') (firstn n k) then [v] else []) as Hv.
  { unfold vals. rewrite !group_def. rewrite filter_app, map_app. cbn [filter fst]. destruct (key_eqb (firstn n k') (firstn n k)); reflexivity. }
  destruct (list_eq_dec string_dec k' k) as [->|Hn].
  - assert (key_eqb k k = true) as -> by now apply key_eqb_eq. assert (key_eqb (firstn n k) (firstn n k) = true) as -> by now apply key_eqb_eq.
    cbn [filter snd]. destruct (is_nan v) eqn:Ev; cbn [negb].
    + symmetry. apply upto_none. intros H. apply Hk. apply in_map_iff in H as (r & Er & Hr). apply (solid_in n (firstn n k) l r) in Hr as (Hr & _). apply in_map_iff. eauto.
    + cbn [upto fst]. assert (key_eqb k k = true) as -> by now apply key_eqb_eq. symmetry. apply xsum_skip.
  - assert (key_eqb k' k = false) as Ek by (unfold key_eqb; now destruct (list_eq_dec string_dec k' k)). rewrite Ek, IH, Hv.
    destruct (key_eqb (firstn n k') (firstn n k)) eqn:Eg.
    + rewrite filter_app. cbn [filter snd]. destruct (is_nan v) eqn:Ev; cbn [negb].
      * rewrite app_nil_r. reflexivity.
      * cbn [upto]. rewrite Ek. reflexivity.
    + rewrite app_nil_r. reflexivity.
Qed.
Lemma cum_same n k l l' : NoDup (List.map fst l) -> NoDup (List.map fst l') -> solid n (firstn n k) l = solid n (firstn n k) l' ->
  lookup k (group_cumsum n l) = lookup k (group_cumsum n l').
Proof. intros H H' E. unfold group_cumsum. rewrite !cum_upto by assumption. now rewrite E. Qed.
Lemma level_lookup n k l : NoDup (List.map fst l) -> lookup k (sort_by_level n l) = lookup k l.
Proof. intros H. symmetry. apply lookup_perm; auto. symmetry. now apply sort_by_level_perm. Qed.
Lemma cumsum_nodup n l : NoDup (List.map fst l) -> NoDup (List.map fst (group_cumsum n l)).
Proof. intros H. unfold group_cumsum. now rewrite L_OpsA.cumsum_from_keys. Qed.

Lemma solid_perm n g l l' : Permutation l l' -> Permutation (solid n g l) (solid n g l').
Proof. intros H. unfold solid. rewrite ?group_def. now apply filter_perm', filter_perm'. Qed.
Lemma solid_pads n g P Q : pads P Q -> Permutation (solid n g P) (solid n g Q).
Proof.
  intros (_ & E & Hp & HE). rewrite (solid_perm n g _ _ Hp). unfold solid. rewrite ?group_def. rewrite !filter_app.
  assert (filter (fun r : list string * num => negb (is_nan (snd r))) (filter (fun r => key_eqb (firstn n (fst r)) g) E) = []) as ->; [|now rewrite app_nil_r].
  apply filter_none. intros r Hr. apply filter_In in Hr as [Hr _]. rewrite Forall_forall in HE. now rewrite (HE r Hr).
Qed.
Lemma ss_filter {A} (P : A -> A -> Prop) f l : StronglySorted P l -> StronglySorted P (filter f l). Proof. apply ssorted_filter. Qed.
(** Sorted rows with values are the same when nothing ties. *)
Lemma solid_sorted n g (R : list string * num -> list string * num -> Prop) P Q SP SQ :
  pads P Q -> Permutation SP P -> Permutation SQ Q -> StronglySorted R SP -> StronglySorted R SQ ->
  (forall a b, In a (solid n g Q) -> In b (solid n g Q) -> R a b -> R b a -> a = b) -> solid n g SP = solid n g SQ.
Proof.
  intros Hp H1 H2 S1 S2 Ha. apply (ssorted_unique R).
  - rewrite (solid_perm n g _ _ H1), (solid_perm n g _ _ H2). now apply solid_pads.
  - unfold solid. rewrite ?group_def. now apply ssorted_filter, ssorted_filter.
  - unfold solid. rewrite ?group_def. now apply ssorted_filter, ssorted_filter.
  - assert (forall a, In a (solid n g SP) -> In a (solid n g Q)) as Hin.
    { intros a. apply Permutation_in. rewrite (solid_perm n g _ _ H1). now apply solid_pads. }
    intros a b Ia Ib. apply Ha; auto.
Qed.
Lemma key_cmp_antisym a b : key_cmp a b <> Gt -> key_cmp b a <> Gt -> a = b.
Proof. intros H1 H2. apply key_cmp_eq. rewrite key_cmp_anti in H2. destruct (key_cmp a b); cbn in H2; congruence. Qed.
Lemma row_unique (l : rframe) a b : NoDup (List.map fst l) -> In a l -> In b l -> fst a = fst b -> a = b.
Proof. apply (L_SqlOps4.NoDup_fst_eq l). Qed.
Lemma label_antisym asc n g (Q : rframe) a b : NoDup (List.map fst Q) -> In a (solid n g Q) -> In b (solid n g Q) ->
  label_order asc n (fst a) (fst b) -> label_order asc n (fst b) (fst a) -> a = b.
Proof.
  intros Hd Ha Hb H1 H2. apply solid_in in Ha as (Ha & Ga & _). apply solid_in in Hb as (Hb & Gb & _). apply (row_unique Q); auto.
  rewrite <- (firstn_skipn n (fst a)), <- (firstn_skipn n (fst b)). f_equal; [congruence|]. unfold label_order in *. destruct asc; now apply key_cmp_antisym.
Qed.
Lemma value_antisym asc n g (Q : rframe) a b : NoDup (List.map fst Q) ->
  (forall k k' v, In (k, v) Q -> In (k', v) Q -> firstn n k = firstn n k' -> v <> NaN -> k = k') ->
  In a (solid n g Q) -> In b (solid n g Q) -> value_order asc (snd a) (snd b) -> value_order asc (snd b) (snd a) -> a = b.
Proof.
  intros Hd Ht Ha Hb H1 H2. apply solid_in in Ha as (Ha & Ga & Na). apply solid_in in Hb as (Hb & Gb & Nb). destruct a as [ka va], b as [kb vb]. cbn [fst snd] in *.
  assert (va = vb) as ->.
  { destruct H1 as [->|[_ H1]]; [discriminate|]. destruct H2 as [->|[_ H2]]; [discriminate|]. apply xlt_total; auto; destruct asc; auto. }
  f_equal. apply (Ht ka kb vb); auto; [congruence|]. intros ->. discriminate.
Qed.

(** ** The operations *)
Lemma column_all j rows res : (forall k, In k (List.map fst res) -> In k (List.map fst rows)) -> (forall k, lookup k (wcol j rows) = lookup k res) -> column_is j rows res NaN.
Proof. intros H1 H2. split; [auto|]. intros k _ Hk. rewrite H2. now apply lookup_None. Qed.
Lemma pads_is j rows res : pads (wcol j rows) res -> column_is j rows res NaN.
Proof. intros H. apply column_all; intros k; [|now apply pads_lookup]. intros Hk. rewrite <- (wcol_keys j). now apply (pads_keys _ _ _ H). Qed.

Section Op.
  Variables (c j n : nat) (w : wframe) (fr : rframe).
  Hypothesis Hj : (j < c)%nat.
  Hypothesis Hp : pads (wcol j w) fr.
  Hypothesis Hd : NoDup (List.map fst fr).
  Lemma Hdw : NoDup (List.map fst w). Proof. rewrite <- (wcol_keys j). apply Hp. Qed.

  Lemma op_dist : column_is j (wdistribution c n w) (distribution n fr) NaN.
  Proof. apply pads_is. rewrite wcol_distribution by exact Hj. now apply pads_distribution. Qed.
  Lemma dist_nodup fr' : NoDup (List.map fst fr') -> NoDup (List.map fst (distribution n fr')).
  Proof. unfold distribution. rewrite map_map. auto. Qed.
  Lemma level_keys_keep l k : In k (List.map fst (sort_by_level n l)) <-> In k (List.map fst l).
  Proof.
    unfold sort_by_level. rewrite !in_map_iff. split; intros (r & <- & Hr); exists r; split; auto.
    - apply in_flat_map in Hr as (g & _ & Hr). now apply filter_In in Hr.
    - apply in_flat_map. exists (firstn n (fst r)). split; [apply level_keys_In; destruct n; [now left|right; split; [discriminate|eauto]]|]. apply filter_In. split; auto. now apply key_eqb_eq.
  Qed.
  Lemma wlevel_keep (l : wframe) k : In k (List.map fst (wsort_by_level n l)) <-> In k (List.map fst l).
  Proof. rewrite <- (wcol_keys j (wsort_by_level n l)), wcol_level, level_keys_keep, wcol_keys. reflexivity. Qed.

  Lemma op_cum_over psort lsort vsort asc : frames_sort psort lsort ->
    column_is j (wcumulative lsort vsort c n CumOver asc w) (cumulative_distribution n (BySort (psort CumOver asc n)) fr) NaN.
  Proof.
    intros (HsP & _ & HsL). destruct (HsP asc n (distribution n fr)) as [P1 P2]. destruct (HsL asc n (wdistribution c n w)) as [W1 W2].
    assert (NoDup (List.map fst (distribution n fr))) as HdD by now apply dist_nodup.
    pose proof (pads_distribution _ _ n Hp) as Hpd.
    assert (NoDup (List.map fst (psort CumOver asc n (distribution n fr)))) as D1.
    { apply (Permutation_NoDup (l := List.map fst (distribution n fr))); auto. now apply Permutation_map, Permutation_sym. }
    assert (NoDup (List.map fst (wcol j (lsort asc n (wdistribution c n w))))) as D2.
    { rewrite wcol_keys. apply (Permutation_NoDup (l := List.map fst (wdistribution c n w))); [now apply Permutation_map, Permutation_sym|]. rewrite <- (wcol_keys j), wcol_distribution by exact Hj. apply Hpd. }
    apply column_all; intros k.
    - unfold wcumulative. rewrite wlevel_keep, <- (wcol_keys j), wcol_cumsum by exact Hj. unfold cumulative_distribution. rewrite level_keys_keep. unfold group_cumsum. rewrite !L_OpsA.cumsum_from_keys.
      intros Hk. rewrite wcol_keys. apply (Permutation_in _ (Permutation_sym (Permutation_map fst W1))). apply (Permutation_in _ (Permutation_map fst P1)) in Hk.
      rewrite <- (wcol_keys j), wcol_distribution by exact Hj. now apply (pads_keys _ _ _ Hpd).
    - unfold wcumulative, cumulative_distribution. rewrite wcol_level, wcol_cumsum by exact Hj. change (cumsum_from n (wcol j [])) with (group_cumsum n).
      rewrite !level_lookup by now apply cumsum_nodup. apply cum_same; auto.
      apply (solid_sorted n _ (fun a b => label_order asc n (fst a) (fst b)) (distribution n (wcol j w)) (distribution n fr)); auto.
      + unfold wcol at 1. rewrite (Permutation_map _ W1). fold (wcol j (wdistribution c n w)). now rewrite wcol_distribution.
      + unfold wcol. clear - W2. induction W2; cbn; constructor; auto. rewrite Forall_forall in *. intros r Hr. apply in_map_iff in Hr as (x & <- & Hx). cbn. now apply H.
      + intros a b Ha Hb. now apply (label_antisym asc n (firstn n k) (distribution n fr)).
  Qed.
  Lemma op_cum_values psort lsort asc : frames_sort psort lsort ->
    (forall k k' v, In (k, v) (distribution n fr) -> In (k', v) (distribution n fr) -> firstn n k = firstn n k' -> v <> NaN -> k = k') ->
    column_is j (wcumulative lsort (psort CumValues) c n CumValues asc w) (cumulative_distribution n (BySort (psort CumValues asc n)) fr) NaN.
  Proof.
    intros (_ & HsV & _) Ht. pose proof (pads_distribution _ _ n Hp) as Hpd.
    destruct (HsV asc n (distribution n fr)) as [P1 P2]. destruct (HsV asc n (distribution n (wcol j w))) as [W1 W2].
    assert (NoDup (List.map fst (distribution n fr))) as HdD by now apply dist_nodup.
    assert (NoDup (List.map fst (psort CumValues asc n (distribution n fr)))) as D1.
    { apply (Permutation_NoDup (l := List.map fst (distribution n fr))); auto. now apply Permutation_map, Permutation_sym. }
    assert (NoDup (List.map fst (psort CumValues asc n (distribution n (wcol j w))))) as D2.
    { apply (Permutation_NoDup (l := List.map fst (distribution n (wcol j w)))); [now apply Permutation_map, Permutation_sym|]. apply Hpd. }
    set (frs := List.map (fun i => group_cumsum n (psort CumValues asc n (wcol i (wdistribution c n w)))) (seq 0 c)).
    assert (nth_error frs j = Some (group_cumsum n (psort CumValues asc n (distribution n (wcol j w))))) as Hn.
    { unfold frs. rewrite <- (wcol_distribution c j n w Hj). apply (map_nth_error (fun i => group_cumsum n (psort CumValues asc n (wcol i (wdistribution c n w))))). rewrite (nth_error_nth' _ 0%nat) by (rewrite seq_length; exact Hj). now rewrite seq_nth. }
    pose proof (concat_pads frs j _ Hn (cumsum_nodup n _ D2)) as Hc.
    apply column_all; intros k.
    - unfold wcumulative. fold frs. rewrite wlevel_keep. unfold cumulative_distribution. rewrite level_keys_keep. intros Hk. rewrite <- (wcol_keys j). apply (pads_keys _ _ _ Hc).
      unfold group_cumsum in *. rewrite L_OpsA.cumsum_from_keys in *. apply (Permutation_in _ (Permutation_sym (Permutation_map fst W1))). apply (Permutation_in _ (Permutation_map fst P1)) in Hk. now apply (pads_keys _ _ _ Hpd).
    - unfold wcumulative, cumulative_distribution. fold frs. rewrite wcol_level. rewrite level_lookup by apply Hc. rewrite (pads_lookup _ _ _ Hc). rewrite level_lookup by now apply cumsum_nodup.
      apply cum_same; auto. apply (solid_sorted n _ (fun a b => value_order asc (snd a) (snd b)) (distribution n (wcol j w)) (distribution n fr)); auto.
      intros a b Ha Hb. now apply (value_antisym asc n (firstn n k) (distribution n fr)).
  Qed.
End Op.
