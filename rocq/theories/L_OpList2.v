(** Missing rows do not change an operation (C74): frames. *)
From Coq Require Import Reals List Bool String Arith Permutation Sorted Lia Lra.
From Verif Require Import M_Num M_Frame S_Ops M_Ops L_Frame L_Jackknife3 L_Slices L_SqlOps3 L_SqlLeaf2 M_SqlList M_OpList L_OpList1.
Import ListNotations.
Open Scope list_scope.

(** P is Q with more keys, without values. *)
Definition pads (P Q : rframe) : Prop :=
  NoDup (List.map fst P) /\ exists E, Permutation P (Q ++ E) /\ Forall (fun r => snd r = NaN) E.

Lemma lookup_perm (A B : rframe) k : NoDup (List.map fst A) -> Permutation A B -> lookup k A = lookup k B.
Proof.
  intros Hd H. assert (NoDup (List.map fst B)) as Hb by (apply (Permutation_NoDup (l := List.map fst A)); [now apply Permutation_map|exact Hd]).
  destruct (in_dec (list_eq_dec string_dec) k (List.map fst A)) as [Hk|Hk].
  - apply in_map_iff in Hk as ([k' v] & <- & Hk). cbn. rewrite (lookup_In k' v A Hd Hk). symmetry. apply lookup_In; auto. now apply (Permutation_in _ H).
  - rewrite !lookup_None; auto. intros Hb'. apply Hk. apply (Permutation_in _ (Permutation_sym (Permutation_map fst H))). exact Hb'.
Qed.
Lemma lookup_app_in k (A B : rframe) : In k (List.map fst A) -> lookup k (A ++ B) = lookup k A.
Proof. induction A as [|[k' v] A IH]; cbn; [easy|]. unfold key_eqb. destruct (list_eq_dec string_dec k' k); auto. intros [H|H]; [contradiction|auto]. Qed.
Lemma lookup_app_out k (A B : rframe) : ~ In k (List.map fst A) -> lookup k (A ++ B) = lookup k B.
Proof. induction A as [|[k' v] A IH]; cbn; [easy|]. unfold key_eqb. destruct (list_eq_dec string_dec k' k); auto. intros H. destruct H. now left. Qed.
Lemma lookup_nans k (E : rframe) : Forall (fun r => snd r = NaN) E -> lookup k E = NaN.
Proof. induction 1 as [|[k' v] E H _ IH]; cbn; auto. cbn in H. subst v. destruct (key_eqb k' k); auto. Qed.
Lemma pads_lookup P Q k : pads P Q -> lookup k P = lookup k Q.
Proof.
  intros (Hd & E & Hp & HE). rewrite (lookup_perm _ _ k Hd Hp). destruct (in_dec (list_eq_dec string_dec) k (List.map fst Q)) as [Hi|Hi]; [now apply lookup_app_in|].
  rewrite lookup_app_out by exact Hi. rewrite lookup_nans by exact HE. now rewrite lookup_None.
Qed.
Lemma pads_nodup P Q : pads P Q -> NoDup (List.map fst P) /\ NoDup (List.map fst Q).
Proof.
  intros (Hd & E & Hp & HE). split; auto. apply (Permutation_NoDup (l' := List.map fst (Q ++ E))) in Hd; [|now apply Permutation_map].
  rewrite map_app in Hd. clear - Hd. induction (List.map fst Q); [constructor|]. cbn in Hd. inversion Hd; subst. constructor; auto. intros H. apply H1, in_or_app. auto.
Qed.
Lemma pads_keys P Q k : pads P Q -> In k (List.map fst Q) -> In k (List.map fst P).
Proof. intros (_ & E & Hp & _) H. apply (Permutation_in _ (Permutation_sym (Permutation_map fst Hp))). rewrite map_app. apply in_or_app. auto. Qed.
Lemma NoDup_map_filter' (P : rframe) p : NoDup (List.map fst P) -> NoDup (List.map fst (filter p P)).
Proof.
  intros Hd. induction P as [|r P IH]; cbn; [constructor|]. inversion Hd as [|? ? H1 H2]; subst. destruct (p r); cbn; auto. constructor; auto. rewrite in_map_iff. intros (x & Ex & Hx). apply H1. rewrite <- Ex. apply in_map. now apply filter_In in Hx.
Qed.
Lemma filter_perm' {A} (p : A -> bool) l l' : Permutation l l' -> Permutation (filter p l) (filter p l').
Proof. induction 1; cbn; auto; [destruct (p x); auto|destruct (p x), (p y); auto; constructor|now transitivity (filter p l')]. Qed.
Lemma pads_filter P Q p : pads P Q -> pads (filter p P) (filter p Q).
Proof.
  intros (Hd & E & Hp & HE). split; [now apply NoDup_map_filter'|]. exists (filter p E). split.
  - rewrite <- filter_app. now apply filter_perm'.
  - rewrite Forall_forall in *. intros r Hr. apply filter_In in Hr as [Hr _]. auto.
Qed.
(** A change of the values that keeps NaN. *)
Lemma pads_values P Q (f : list string -> num -> num) : (forall k, f k NaN = NaN) -> pads P Q ->
  pads (List.map (fun r => (fst r, f (fst r) (snd r))) P) (List.map (fun r => (fst r, f (fst r) (snd r))) Q).
Proof.
  intros Hf (Hd & E & Hp & HE). split; [now rewrite map_map|]. eexists. split; [rewrite (Permutation_map _ Hp), map_app; reflexivity|].
  rewrite Forall_forall in *. intros r Hr. apply in_map_iff in Hr as (x & <- & Hx). cbn. now rewrite (HE x Hx).
Qed.
Lemma nan_vals (E : rframe) : Forall (fun r => snd r = NaN) E -> List.map snd E = nans (List.length E).
Proof. unfold nans. induction 1 as [|r E H _ IH]; cbn; auto. now rewrite H, IH. Qed.
Lemma pads_vals P Q n g : pads P Q -> exists m, Permutation (vals n g P) (vals n g Q ++ nans m).
Proof.
  intros H. apply (pads_filter _ _ (fun r => key_eqb (firstn n (fst r)) g)) in H as (_ & E & Hp & HE).
  exists (List.length E). rewrite <- (nan_vals E HE). unfold vals, S_Ops.group. rewrite <- map_app. now apply Permutation_map.
Qed.
Lemma xdiv_nan v : xdiv NaN v = NaN. Proof. now destruct v. Qed.
Lemma pads_distribution P Q n : pads P Q -> pads (distribution n P) (distribution n Q).
Proof.
  intros H. rewrite !distribution_eq.
  rewrite (map_ext (fun r => (fst r, xdiv (snd r) (xsum (vals n (firstn n (fst r)) P)))) (fun r => (fst r, xdiv (snd r) (xsum (vals n (firstn n (fst r)) Q))))).
  - apply (pads_values P Q (fun k v => xdiv v (xsum (vals n (firstn n k) Q)))); auto.
  - intros r. do 2 f_equal. destruct (pads_vals P Q n (firstn n (fst r)) H) as [m Hm]. now apply (xsum_padded _ _ m).
Qed.

(** ** A column of the list's frame *)
Lemma nth_map_seq {A} (f : nat -> A) c j d : (j < c)%nat -> nth j (List.map f (seq 0 c)) d = f j.
Proof. intros H. rewrite (nth_indep _ d (f 0%nat)) by (rewrite map_length, seq_length; exact H). rewrite map_nth, seq_nth by exact H. reflexivity. Qed.
Lemma concat_pads frs j fr : nth_error frs j = Some fr -> NoDup (List.map fst fr) -> pads (wcol j (concat_frames frs)) fr.
Proof.
  intros Hj Hd. unfold concat_frames, wcol. rewrite map_map. set (U := nodup _ _).
  assert (NoDup U) as HU by apply NoDup_nodup.
  assert (forall k, In k (List.map fst fr) -> In k U) as Hin.
  { intros k Hk. apply nodup_In, in_flat_map. exists fr. split; auto. now apply (nth_error_In _ j). }
  assert (forall k, nth j (List.map (lookup k) frs) NaN = lookup k fr) as Hc.
  { intros k. rewrite (nth_indep _ NaN (lookup k [])) by (rewrite map_length; apply nth_error_Some; intros Hx; pose proof (eq_trans (eq_sym Hx) Hj) as Hy; discriminate). rewrite map_nth. f_equal. now apply nth_error_nth. }
  unfold cell_at. cbn [fst snd]. rewrite (map_ext _ (fun k => (k, lookup k fr))) by (intros k; now rewrite Hc).
  split; [rewrite map_map; cbn; now rewrite map_id|].
  exists (List.map (fun k => (k, lookup k fr)) (filter (fun k => negb (existsb (key_eqb k) (List.map fst fr))) U)). split.
  - assert (fr = List.map (fun k => (k, lookup k fr)) (List.map fst fr)) as Efr.
    { rewrite map_map. rewrite <- (map_id fr) at 1. apply map_ext_in. intros [k v] Hk. cbn. now rewrite (lookup_In k v fr Hd Hk). }
    set (F := filter _ U). assert (Permutation U (List.map fst fr ++ F)) as HP; [|apply (Permutation_map (fun k => (k, lookup k fr))) in HP; rewrite map_app, <- Efr in HP; exact HP].
    unfold F. apply NoDup_Permutation; auto.
    + apply NoDup_app_disjoint; auto; [now apply NoDup_filter|]. intros k Hk H. apply filter_In in H as [_ H]. apply negb_true_iff in H.
      assert (existsb (key_eqb k) (List.map fst fr) = true) as Ht by (apply existsb_exists; exists k; split; auto; now apply key_eqb_eq). congruence.
    + intros k. rewrite in_app_iff, filter_In. split.
      * intros Hk. destruct (existsb (key_eqb k) (List.map fst fr)) eqn:Ek; [|right; auto]. left. apply existsb_exists in Ek as (k' & Hk' & Ee). apply key_eqb_eq in Ee. now subst.
      * intros [Hk|[Hk _]]; auto.
  - apply Forall_forall. intros r Hr. apply in_map_iff in Hr as (k & <- & Hk). cbn. apply lookup_None. intros Hk'. apply filter_In in Hk as [_ Hk]. apply negb_true_iff in Hk.
    assert (existsb (key_eqb k) (List.map fst fr) = true) as Ht by (apply existsb_exists; exists k; split; auto; now apply key_eqb_eq). congruence.
Qed.
Lemma concat_keys frs k : In k (List.map fst (concat_frames frs)) <-> exists fr, In fr frs /\ In k (List.map fst fr).
Proof. unfold concat_frames. rewrite map_map. cbn. rewrite map_id, nodup_In, in_flat_map. reflexivity. Qed.
Lemma concat_nodup frs : NoDup (List.map fst (concat_frames frs)).
Proof. unfold concat_frames. rewrite map_map. cbn. rewrite map_id. apply NoDup_nodup. Qed.
Lemma wcol_keys j w : List.map fst (wcol j w) = List.map fst w.
Proof. unfold wcol. now rewrite map_map. Qed.
Lemma wcol_filter j w p : wcol j (filter (fun r => p (fst r)) w) = filter (fun r => p (fst r)) (wcol j w).
Proof. unfold wcol. induction w as [|r w IH]; cbn; auto. destruct (p (fst r)); cbn; [f_equal|]; exact IH. Qed.
Lemma wcol_flat {B} j (f : B -> wframe) l : wcol j (flat_map f l) = flat_map (fun b => wcol j (f b)) l.
Proof. unfold wcol. induction l as [|b l IH]; cbn; auto. rewrite map_app. f_equal. exact IH. Qed.
Lemma cell_seq (g : nat -> num) c j k : (j < c)%nat -> cell_at j (k, List.map g (seq 0 c)) = g j.
Proof. intros H. unfold cell_at. cbn [snd]. now apply nth_map_seq. Qed.
Lemma wcol_per_cell c j f w : (j < c)%nat -> wcol j (per_cell c f w) = List.map (fun r => (fst r, f j (fst r) (snd r))) (wcol j w).
Proof. intros H. unfold wcol, per_cell. rewrite !map_map. apply map_ext. intros r. cbn [fst snd]. f_equal. now apply (cell_seq (fun j => f j (fst r) (cell_at j r))). Qed.
Lemma wgroups_col n j w : wgroups n w = level_keys n (wcol j w).
Proof. unfold wgroups, level_keys, wcol. destruct n; auto. now rewrite map_map. Qed.
Lemma wcol_groupby c j n (agg : list num -> num) w : (j < c)%nat -> wcol j (wgroupby c n agg w) = groupby_level n agg (wcol j w).
Proof.
  intros H. unfold wgroupby, groupby_level. rewrite (wgroups_col n j). unfold wcol at 1. rewrite map_map. apply map_ext. intros g. cbn [fst]. f_equal.
  rewrite (cell_seq (fun j => agg (List.map (cell_at j) (filter (fun r => key_eqb (firstn n (fst r)) g) w)))) by exact H. f_equal. rewrite <- (wcol_filter j w (fun k => key_eqb (firstn n k) g)). unfold wcol. now rewrite map_map.
Qed.
Lemma wcol_distribution c j n w : (j < c)%nat -> wcol j (wdistribution c n w) = distribution n (wcol j w).
Proof. intros H. unfold wdistribution, distribution. rewrite wcol_per_cell by exact H. apply map_ext. intros r. unfold wlookup. now rewrite wcol_groupby. Qed.
Lemma wcol_level n j w : wcol j (wsort_by_level n w) = sort_by_level n (wcol j w).
Proof. unfold wsort_by_level, sort_by_level. rewrite wcol_flat, (wgroups_col n j). induction (level_keys n (wcol j w)); cbn; auto. now rewrite (wcol_filter j w (fun k => key_eqb (firstn n k) a)), IHl. Qed.
Lemma wcol_cons j r l : wcol j (r :: l) = (fst r, cell_at j r) :: wcol j l. Proof. reflexivity. Qed.
Lemma wcol_app j a b : wcol j (a ++ b) = wcol j a ++ wcol j b. Proof. apply map_app. Qed.
Lemma wcol_cumsum c j n l : (j < c)%nat -> forall seen, wcol j (wcumsum_from c n seen l) = cumsum_from n (wcol j seen) (wcol j l).
Proof.
  intros H. induction l as [|r l IH]; intros seen; [reflexivity|].
  cbn [wcumsum_from]. rewrite !wcol_cons. cbn [cumsum_from fst snd]. rewrite IH, wcol_app. cbn [wcol List.map]. f_equal. f_equal.
  etransitivity; [exact (cell_seq (fun j => if is_nan (cell_at j r) then NaN else xsum (List.map (cell_at j) (filter (fun q => key_eqb (firstn n (fst q)) (firstn n (fst r))) seen) ++ [cell_at j r])) c j (fst r) H)|]. cbn beta.
  destruct (is_nan (cell_at j r)); auto. do 2 f_equal. rewrite <- (wcol_filter j seen (fun k => key_eqb (firstn n k) (firstn n (fst r)))). unfold wcol. now rewrite map_map.
Qed.
