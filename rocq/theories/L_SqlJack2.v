(** Operations on a result whose slices are given. *)
From Coq Require Import Reals List Bool String Arith ZArith Permutation Sorted Lia Lra.
From Verif Require Import M_Num M_Frame L_Frame M_Ops S_Ops L_OpsA L_OpsB L_OpsC M_Slices S_Slices L_Slices L_Slices2 M_SqlGlobal M_SqlLeaf S_SqlLeaf M_SqlOps S_SqlOps L_SqlOps3 L_SqlBin3.
Import ListNotations.
Open Scope string_scope.
Open Scope list_scope.

Lemma total_restrict n m k g c : List.length k = n -> total m g (restrict n k c) = total (n + m) (k ++ g) c.
Proof. intros H. unfold total, nums. now rewrite vals_restrict. Qed.
Lemma firstn_key n m (k g : list string) : List.length k = n -> firstn (n + m) (k ++ g) = k ++ firstn m g.
Proof. intros H. rewrite firstn_plus, firstn_app_len, skipn_app_len by assumption. reflexivity. Qed.
Lemma skipn_key n m (k g : list string) : List.length k = n -> skipn (n + m) (k ++ g) = skipn m g.
Proof. intros H. rewrite <- skipn_skipn, skipn_app_len by assumption. reflexivity. Qed.

Section Lift.
  Variables (n m : nat) (P : list string -> Prop) (R : rframe).
  (** every row belongs to a slice *)
  Hypothesis Hsplit : forall q v, In (q, v) R -> exists k g, q = k ++ g /\ List.length k = n /\ P k.
  Hypothesis Hlen : forall k, P k -> List.length k = n.

  Lemma at_slice q v : In (q, v) R -> exists k g, q = k ++ g /\ List.length k = n /\ P k /\ In (g, v) (restrict n k R).
  Proof. intros H. destruct (Hsplit q v H) as (k & g & -> & Hk & Hp). exists k, g. repeat split; auto. now apply restrict_In. Qed.

  Lemma dist_lift : (forall k, P k -> dist_fits m (restrict n k R)) -> dist_fits (n + m) R.
  Proof.
    intros H q v Hq. destruct (at_slice q v Hq) as (k & g & -> & Hk & Hp & Hg). rewrite firstn_key, <- total_restrict by assumption. now apply (H k Hp g v).
  Qed.
  Lemma cum_lift how : (exists k, P k) -> (forall k, P k -> cum_fits m how (restrict n k R)) -> cum_fits (n + m) how R.
  Proof.
    intros (k0 & Hk0) H. split.
    - intros q v Hq. destruct (at_slice q v Hq) as (k & g & -> & Hk & Hp & Hg). rewrite firstn_key, <- total_restrict by assumption. now apply (proj1 (H k Hp) g v).
    - destruct how as [|o|].
      + exact I.
      + split; [apply (proj2 (H k0 Hk0))|]. intros q v Hq. destruct (at_slice q v Hq) as (k & g & -> & Hk & Hp & Hg). rewrite skipn_key by assumption.
        now apply (proj2 (proj2 (H k Hp)) g v).
      + intros q q' v Hq Hq' E. destruct (at_slice q v Hq) as (k & g & -> & Hk & Hp & Hg). destruct (at_slice q' v Hq') as (k' & g' & -> & Hk' & Hp' & Hg').
        rewrite !firstn_key in E by assumption. apply app_len_inj in E as [<- E]; [|congruence]. f_equal. now apply (proj2 (H k Hp) g g' v).
  Qed.
  Lemma change_lift p base : (exists k, P k) -> (forall k, P k -> change_fits p m base (restrict n k R)) -> change_fits p (n + m) base R.
  Proof.
    intros (k0 & Hk0) H. split; [destruct (H k0 Hk0) as [Hne _]; intros ->; now apply Hne|].
    intros s c r v Hs Hc Hq. rewrite <- (firstn_skipn n s), <- app_assoc in Hq. set (k := firstn n s) in *. set (g := skipn n s) in *.
    assert (List.length k = n) as Hk by (unfold k; rewrite firstn_length; lia). assert (List.length g = m) as Hg by (unfold g; rewrite skipn_length; lia).
    destruct (at_slice _ v Hq) as (k' & g' & E & Hk' & Hp & Hin). apply app_len_inj in E as [<- <-]; [|congruence].
    destruct (H k Hp) as [_ H1]. destruct (H1 g c r v Hg Hc Hin) as (b & Hb & Hz). exists b. split; [|exact Hz]. apply restrict_In in Hb; [|exact Hk].
    rewrite <- (firstn_skipn n s), <- app_assoc. exact Hb.
  Qed.
  Lemma div_lift d : (exists k, P k) -> (forall k, P k -> div_fits d m (restrict n k R)) -> div_fits d (n + m) R.
  Proof.
    intros (k0 & Hk0) H. split; [destruct (H k0 Hk0) as [Hne _]; intros ->; now apply Hne|]. split.
    - intros q v Hq. destruct (at_slice q v Hq) as (k & g & -> & Hk & Hp & Hg). rewrite firstn_key, <- total_restrict by assumption. destruct (H k Hp) as (_ & H1 & _). now apply (H1 g v).
    - destruct (H k0 Hk0) as (_ & _ & H3). destruct d; try exact I; [|exact H3].
      intros q v Hq. destruct (at_slice q _ Hq) as (k & g & -> & Hk & Hp & Hg). rewrite firstn_key, <- total_restrict by assumption. destruct (H k Hp) as (_ & _ & H1). now apply (H1 g v).
  Qed.

  (** *** The cumulative distribution does not depend on how rows of different slices are mixed *)
  Variable psort : cum_how -> bool -> nat -> rframe -> rframe.
  Hypothesis Hps : pandas_sorts psort.
  Lemma groups_sort_by_level (A B : rframe) : (forall g, S_Ops.group m g A = S_Ops.group m g B) -> sort_by_level m A = sort_by_level m B.
  Proof.
    intros H. rewrite !sort_by_level_eq. assert (level_keys m A = level_keys m B) as ->.
    { apply ksorted_ext; try apply level_keys_sorted. intros g. rewrite !level_keys_In. split; intros [Hg|(Hm & r & Hr & E)]; auto; right; (split; [exact Hm|]); exists r; (split; [|exact E]).
      - assert (In r (S_Ops.group m g A)) as Hi by (now apply group_In). rewrite H in Hi. now apply group_In in Hi.
      - assert (In r (S_Ops.group m g B)) as Hi by (now apply group_In). rewrite <- H in Hi. now apply group_In in Hi. }
    induction (level_keys m B) as [|g l IH]; cbn; [reflexivity|]. now rewrite H, IH.
  Qed.
  Definition proper (fr : rframe) : Prop := Forall (fun r => no_inf (snd r)) fr /\ NoDup (List.map fst fr).
  Lemma dist_value (c : rframe) (l : nat) q : (forall k v, In (k, v) c -> v <> NaN /\ total l (firstn l k) c <> 0%R) -> Forall (fun r => no_inf (snd r)) (S_Ops.group l (firstn l (fst q)) c) ->
    In q (distribution l c) -> exists x, snd q = Fin x /\ exists v, In (fst q, Fin v) c /\ x = (v / total l (firstn l (fst q)) c)%R.
  Proof.
    rewrite distribution_eq. intros Hf Hi Hq. apply in_map_iff in Hq as ([k v] & <- & Hkv). cbn [fst snd] in *. destruct (Hf k v Hkv) as [Hv Ht].
    assert (no_inf v) as Hn. { rewrite Forall_forall in Hi. apply (Hi (k, v)). apply group_In. auto. }
    rewrite xsum_finite. 2:{ apply Forall_forall. intros x Hx. unfold vals in Hx. apply in_map_iff in Hx as (r & <- & Hr). rewrite Forall_forall in Hi. now apply Hi. }
    destruct v as [v| | |]; try (destruct Hn; congruence); try congruence. change (Rsum (finite_values (vals l (firstn l k) c))) with (total l (firstn l k) c).
    exists (v / total l (firstn l k) c)%R. split; [|eauto]. unfold xdiv. cbn. destruct (Req_EM_T _ 0) as [E|E]; [contradiction|reflexivity].
  Qed.
  Lemma dist_fin : (forall k, P k -> proper (restrict n k R)) -> (forall k v, In (k, v) R -> v <> NaN /\ total (n + m) (firstn (n + m) k) R <> 0%R) ->
    forall q, In q (distribution (n + m) R) -> exists x, snd q = Fin x /\ exists v, In (fst q, Fin v) R /\ x = (v / total (n + m) (firstn (n + m) (fst q)) R)%R.
  Proof.
    intros Hp Hf q Hq. apply dist_value; auto. rewrite distribution_eq in Hq. apply in_map_iff in Hq as ([k v] & <- & Hkv). cbn [fst].
    destruct (at_slice k v Hkv) as (k' & g & -> & Hk & HP & _). apply Forall_forall. intros [k2 v2] H2. apply group_In in H2 as [H2 E2]. cbn [fst] in E2.
    destruct (at_slice k2 v2 H2) as (k3 & g3 & -> & Hk3 & _ & Hin). rewrite !firstn_key in E2 by assumption. apply app_len_inj in E2 as [-> _]; [|congruence].
    destruct (Hp k' HP) as [H1 _]. rewrite Forall_forall in H1. exact (H1 _ Hin).
  Qed.
  Lemma cum_restrict how asc k : P k -> (forall o, how <> CumOrder o) -> (exists k, P k) -> (forall k, P k -> proper (restrict n k R)) -> (forall k, P k -> cum_fits m how (restrict n k R)) ->
    restrict n k (cumulative_distribution (n + m) (BySort (psort how asc (n + m))) R) = cumulative_distribution m (BySort (psort how asc m)) (restrict n k R).
  Proof.
    intros HP Ho He Hprop Hfits. pose proof (Hlen k HP) as Hk. pose proof (cum_lift how He Hfits) as [HfR HtR]. pose proof (dist_fin Hprop HfR) as HdR.
    unfold cumulative_distribution. rewrite restrict_sort_by_level', restrict_cumsum by assumption. apply groups_sort_by_level. intros g. unfold group_cumsum. rewrite !cumsum_group. f_equal.
    rewrite <- (restrict_distribution n m k R Hk). set (D := distribution (n + m) R) in *.
    destruct (Hps how asc (n + m)%nat D) as [Pa Sa]; [intros _ r Hr; destruct (HdR r Hr) as (x & Ex & _); eauto|].
    assert (forall r, In r (restrict n k D) -> exists x, snd r = Fin x) as HfD.
    { intros [q v] Hr. apply restrict_In in Hr; [|exact Hk]. destruct (HdR _ Hr) as (x & Ex & _). eauto. }
    destruct (Hps how asc m (restrict n k D)) as [Pb Sb]; [intros _ r Hr; eauto|].
    set (le := fun a b => (if asc then frame_cmp how m a b else frame_cmp how m b a) <> Gt) in *.
    assert (forall l, Permutation l D -> Permutation (restrict n k l) (restrict n k D)) as HPR.
    { intros l Hl. rewrite !restrict_eq. now apply Permutation_map, group_perm. }
    apply (ssorted_unique le).
    - apply group_perm. etransitivity; [apply HPR, Pa|now symmetry].
    - apply ssorted_filter. rewrite restrict_eq. apply (ssorted_filter _ (fun r => if list_eq_dec string_dec (firstn n (fst r)) k then true else false)) in Sa.
      change (filter _ (psort how asc (n + m)%nat D)) with (S_Ops.group n k (psort how asc (n + m)%nat D)) in Sa.
      assert (forall l, StronglySorted (fun a b => (if asc then frame_cmp how (n + m) a b else frame_cmp how (n + m) b a) <> Gt) l -> StronglySorted le (List.map (fun r => (skipn n (fst r), snd r)) l)) as Hm.
      { clear - n m asc. intros l H. induction H as [|a l H IH Hf]; cbn; constructor; auto. rewrite Forall_forall in *. intros x Hx. apply in_map_iff in Hx as (b & <- & Hb). specialize (Hf b Hb).
        unfold le. destruct how; cbn [frame_cmp fst snd] in *; rewrite ?skipn_skipn; exact Hf. }
      now apply Hm.
    - now apply ssorted_filter.
    - assert (forall a, In a (S_Ops.group m g (restrict n k (psort how asc (n + m)%nat D))) -> In (k ++ fst a, snd a) D /\ firstn m (fst a) = g) as Hin.
      { intros [q v] Ha. apply group_In in Ha as [Ha Eg]. split; [|exact Eg]. cbn [fst snd]. apply (restrict_In n k D q v Hk). apply (Permutation_in _ (HPR _ Pa)). exact Ha. }
      intros a b Ha Hb La Lb. destruct (Hin a Ha) as [Da Ga], (Hin b Hb) as [Db Gb]. destruct (HdR _ Da) as (x & Ex & v & Hv & Xv), (HdR _ Db) as (y & Ey & u & Hu & Yu).
      destruct a as [qa a], b as [qb b]. cbn [fst snd] in *. subst a b.
      destruct (Hprop k HP) as [_ Hnd].
      assert (qa = qb -> (qa, Fin x) = (qb, Fin y)) as Hkey.
      { intros <-. f_equal. rewrite Xv, Yu. apply (restrict_In n k R qa (Fin v) Hk) in Hv. apply (restrict_In n k R qa (Fin u) Hk) in Hu. pose proof (lookup_In _ _ _ Hnd Hv) as L1. rewrite (lookup_In _ _ _ Hnd Hu) in L1. now injection L1 as ->. }
      apply Hkey. destruct how as [|o|].
      + assert (key_cmp (skipn m qa) (skipn m qb) = Eq) as E.
        { unfold le in La, Lb. cbn [frame_cmp fst] in La, Lb. rewrite (key_cmp_anti (skipn m qa) (skipn m qb)) in La, Lb. destruct asc; destruct (key_cmp (skipn m qa) (skipn m qb)); cbn in *; congruence. }
        apply key_cmp_eq in E. rewrite <- (firstn_skipn m qa), <- (firstn_skipn m qb). congruence.
      + now contradiction (Ho o).
      + assert (x = y) as Exy.
        { unfold le in La, Lb. cbn [frame_cmp snd] in La, Lb. destruct asc; apply Rcmp_le in La; apply Rcmp_le in Lb; lra. }
        cbn [cum_fits] in HtR. assert (v = u) as Evu.
        { rewrite Xv, Yu in Exy. rewrite !firstn_key in Exy by assumption. rewrite Ga, Gb in Exy. destruct (HfR _ _ Hv) as [_ Ht]. rewrite firstn_key in Ht by assumption. rewrite Ga in Ht.
          apply (Rmult_eq_reg_r (/ total (n + m) (k ++ g) R)); [exact Exy|]. now apply Rinv_neq_0_compat. }
        subst u. apply (app_inv_head k). apply (HtR _ _ (Fin v) Hv Hu). rewrite !firstn_key by assumption. congruence.
  Qed.
End Lift.

(** *** TopK *)
Lemma nlargest_ne k l x : k <> 0%nat -> In x l -> is_nan x = false -> nlargest k l <> [].
Proof.
  intros Hk Hx Hn E. unfold nlargest in E. assert (In x (filter (fun x => negb (is_nan x)) (sort_desc l))) as Hi.
  { apply filter_In. split; [apply (Permutation_in _ (Permutation_sym (sort_desc_perm l))); exact Hx|now rewrite Hn]. }
  destruct (filter (fun x => negb (is_nan x)) (sort_desc l)) as [|y l']; [destruct Hi|]. destruct k; [congruence|discriminate].
Qed.
Lemma top_k_groupby k n (c : rframe) : c <> [] -> div_fits (TopK k) n c -> Forall (fun r => no_inf (snd r)) c ->
  top_k k n c = groupby_level n (fun l => xsum (nlargest k l)) (distribution n c).
Proof.
  intros Hne (_ & Hf & Hk) Hi. unfold top_k, groupby_level. destruct n as [|n]; [reflexivity|]. set (N := S n) in *.
  rewrite filter_all. { rewrite map_map. reflexivity. }
  intros x Hx. apply in_map_iff in Hx as (g & <- & Hg). cbn [snd]. rewrite level_keys_dist in Hg. apply level_keys_In in Hg as [[E _]|(_ & [q v] & Hr & E)]; [discriminate|].
  assert (nlargest k (List.map snd (filter (fun r => key_eqb (firstn N (fst r)) g) (distribution N c))) <> []) as H; [|destruct (nlargest _ _); congruence].
  assert (exists y, In (q, y) (distribution N c) /\ is_nan y = false) as (y & Hy & Ny).
  { assert (In q (List.map fst (distribution N c))) as Hq by (rewrite distribution_eq, map_map; exact (in_map fst _ _ Hr)). apply in_map_iff in Hq as ([q' y] & Eq & Hq). cbn in Eq. subst q'.
    exists y. split; [exact Hq|]. destruct (dist_value c N (q, y)) as (x & Ex & _); [exact Hf| |exact Hq|cbn in Ex; now subst y].
    apply Forall_forall. intros r Hr'. apply group_In in Hr' as [Hr' _]. rewrite Forall_forall in Hi. auto. }
  apply (nlargest_ne k _ y Hk); [|exact Ny]. apply in_map_iff. exists (q, y). split; [reflexivity|]. apply filter_In. split; [exact Hy|]. apply key_eqb_eq. exact E.
Qed.
