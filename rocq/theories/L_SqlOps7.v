(** The leaf's query, and the whole tree. *)
From Coq Require Import Reals List Bool String Arith Permutation Sorted Lia Lra.
From Verif Require Import M_Num M_Frame L_Frame M_Ops S_Ops L_OpsA L_OpsB L_OpsC M_Leaf M_SqlGlobal S_SqlGlobal L_SqlGlobal M_SqlLeaf S_SqlLeaf L_SqlLeaf L_SqlLeaf2 M_SqlOps S_SqlOps L_SqlOps L_SqlOps2 L_SqlOps3 L_SqlOps4 L_SqlOps5 L_SqlOps6 L_SqlBin L_SqlBin2 L_SqlBin3 L_SqlScope.
Import ListNotations.
Open Scope string_scope.
Open Scope list_scope.

Lemma NoDup_fst_nodup {A B} (l : list (A * B)) : NoDup (List.map fst l) -> NoDup l.
Proof. apply NoDup_map_inv. Qed.
Lemma srow_key_labels by_ (r : srow) : (forall c, In c by_ -> slab r c <> None) -> exists k, srow_key by_ r = List.map Some k.
Proof.
  unfold srow_key. induction by_ as [|c by_ IH]; intros H; [now exists []|]. destruct IH as [k E]; [intros c' Hc; apply H; now right|].
  specialize (H c (or_introl eq_refl)). destruct (slab r c) as [s|] eqn:Es; [|congruence]. exists (s :: k). cbn. rewrite Es. now f_equal.
Qed.

Section Leaf.
  Variables (parse : string -> cond) (srt : list okey -> list env -> list env) (t : stable).
  Variables (glob above loc by_ : list string) (m : metric) (name : string).
  Hypothesis Hby : NoDup by_.
  Hypothesis Hname : ~ In name by_.
  Hypothesis Hglob : forall l p, In (l, p) (leaves_with_filters above m) -> incl glob p.
  Hypothesis Hlne : ~ In "" loc.
  Hypothesis Hloc : forall r, spass parse glob r = true -> spass parse loc r = spass parse above r.
  Hypothesis Hfits : leaf_fits parse glob m above loc by_ t.
  Let q := Query (sql_column glob loc m) glob by_.
  Let df := filter (pfilters parse above) (pandas_table t).

  Definition group_here (k : list string) : Prop := (by_ = [] /\ k = []) \/ exists r, In r t /\ spass parse glob r = true /\ srow_key by_ r = List.map Some k.

  Lemma compute_keys m' : forall above' k, In k (List.map fst (compute parse m' by_ (filter (pfilters parse above') (pandas_table t)))) ->
    exists l p, In (l, p) (leaves_with_filters above' m') /\ ((by_ = [] /\ k = []) \/ exists r, In r (pandas_table t) /\ row_key by_ r = Some k /\ pfilters parse p r = true).
  Proof.
    induction m' as [l w|op a IHa b IHb w|op x a IHa w|op a IHa x w|a IHa w|a IHa w]; intros above' k; cbn [compute leaves_with_filters]; rewrite ?filter_pfilters_app; intros H.
    - exists l, (above' ++ w). split; [now left|]. unfold compute_leaf in H. rewrite map_fst_pair in H. apply group_keys_In in H as [H|[_ (r & Hr & Hk)]]; [auto|].
      right. apply filter_In in Hr as [Hr Hp]. exists r. auto.
    - unfold align in H. rewrite map_fst_pair in H. apply sort_uniq_In, in_app_or in H as [H|H].
      + apply IHa in H as (l & p & Hp & HR). exists l, p. split; [apply in_or_app; auto|exact HR].
      + apply IHb in H as (l & p & Hp & HR). exists l, p. split; [apply in_or_app; auto|exact HR].
    - rewrite (map_fst_snd (num_op op (Fin x))) in H. now apply IHa in H.
    - rewrite (map_fst_snd (fun v => num_op op v (Fin x))) in H. now apply IHa in H.
    - rewrite (map_fst_snd xsqrt) in H. now apply IHa in H.
    - rewrite (map_fst_snd xsq) in H. now apply IHa in H.
  Qed.
  Lemma key_in_glob k : In k (List.map fst (compute parse m by_ df)) -> group_here k.
  Proof.
    intros H. apply compute_keys in H as (l & p & Hp & [H|(r & Hr & Hk & Hpr)]); [now left|]. right.
    unfold pandas_table in Hr. apply in_map_iff in Hr as (s & <- & Hs). exists s. split; [exact Hs|]. destruct Hfits as (H1 & _). destruct (H1 l p Hp) as (_ & _ & Hv).
    rewrite verdict_filters in Hpr by auto. split; [|now apply row_key_pandas]. rewrite spass_forallb in *. rewrite forallb_forall in *. intros f Hf. apply Hpr. eapply Hglob; eauto.
  Qed.
  Lemma leaf_value_at k : group_here k -> In k (List.map fst (compute parse m by_ df)) /\
    lookup k (compute parse m by_ df) = fetch (sexpr_value parse (sql_column glob loc m) (M_SqlLeaf.group by_ (List.map Some k) (filter (spass parse glob) t))).
  Proof.
    intros Hk. destruct Hfits as (H1 & H2 & H3). destruct (H3 k Hk) as [H4 H5].
    destruct (compute_value parse by_ k (pandas_table t) m above) as [C1 C2].
    { intros l p Hp. destruct (H4 l p Hp) as [[HR|HR] _]; [auto|]. right. apply used_nonempty in HR as (r & Hr & Hpr & Er).
      destruct (H1 l p Hp) as (_ & _ & Hv). exists (pandas_row r). split; [now apply in_map|]. split; [now apply row_key_pandas|]. rewrite verdict_filters; auto. }
    split; [exact C1|]. unfold df. rewrite C2. symmetry. apply sql_value; auto.
    intros l p Hp. destruct (H1 l p Hp) as (A & B & C). repeat split; auto; [eapply Hglob; eauto|]. apply (H4 l p Hp).
  Qed.
  Lemma query_keys sk u : In (sk, u) (run_query parse q t) -> exists k, sk = List.map Some k /\ group_here k /\ u = sexpr_value parse (sql_column glob loc m) (M_SqlLeaf.group by_ sk (filter (spass parse glob) t)).
  Proof.
    unfold run_query, q. cbn [q_by q_where q_col]. intros H. apply in_map_iff in H as (sk' & E & H). injection E as -> <-.
    assert (exists k, sk = List.map Some k /\ group_here k) as (k & Ek & Hk); [|eauto].
    unfold group_here. destruct by_ as [|c bs]; [destruct H as [<-|[]]; exists []; auto|]. apply nodup_In, in_map_iff in H as (r & Er & Hr). apply filter_In in Hr as [Hr Hp].
    destruct Hfits as (_ & H2 & _). destruct (srow_key_labels (c :: bs) r) as [k Ek]; [auto|]. exists k. split; [congruence|]. right. eauto.
  Qed.
  Lemma query_has k : group_here k -> exists u, In (List.map Some k, u) (run_query parse q t).
  Proof.
    intros Hk. eexists. unfold run_query, q. cbn [q_by q_where q_col]. apply in_map_iff. exists (List.map Some k). split; [reflexivity|].
    unfold group_here in Hk. destruct by_ as [|c bs]; [destruct Hk as [[_ ->]|(r & _ & _ & E)]; [now left|]; destruct k; [now left|discriminate]|].
    destruct Hk as [[E _]|(r & Hr & Hp & E)]; [discriminate|]. apply nodup_In. rewrite <- E. apply in_map, filter_In. auto.
  Qed.
  Lemma leaf_obs : obs by_ name (run_sql parse srt (SqlLeaf q name) t) = run_query parse q t.
  Proof.
    cbn [run_sql]. unfold obs. rewrite map_map. etransitivity; [|apply map_id]. apply map_ext_in. intros [sk u] Hk. cbn [fst snd].
    destruct (query_keys _ _ Hk) as (k & -> & Hg & _).
    assert (List.length (List.map (@Some string) k) = List.length by_) as Hl.
    { rewrite map_length. destruct Hg as [[-> ->]|(r & _ & _ & E)]; [reflexivity|]. apply (f_equal (@List.length _)) in E. unfold srow_key in E. rewrite !map_length in E. lia. }
    f_equal.
    - etransitivity; [|apply (map_assoc_combine by_ _ Hby Hl)]. apply map_ext_in. intros c Hc. cbn [q q_by].
      assert (exists l, assoc c (combine by_ (List.map Some k)) = Some l) as [l ->]; [|apply label_of_label].
      revert Hl Hc. generalize (List.map (@Some string) k). clear. induction by_ as [|b bs IH]; intros [|x sk] Hl Hc; try discriminate; [destruct Hc|]. cbn [combine assoc].
      destruct (String.eqb b c) eqn:E; [eauto|]. apply IH; [now injection Hl|]. destruct Hc as [->|Hc]; [rewrite String.eqb_refl in E; discriminate|exact Hc].
    - assert (assoc name (combine (q_by q) (List.map Some k)) = None) as ->.
      { cbn [q q_by]. revert Hname. clear. generalize (List.map (@Some string) k). induction by_ as [|b bs IH]; intros [|x sk] H; auto. cbn [combine assoc].
        destruct (String.eqb b name) eqn:E; [apply String.eqb_eq in E; subst; exfalso; apply H; now left|]. apply IH. intros Hi. apply H. now right. }
      rewrite String.eqb_refl. apply number_of_number.
  Qed.
  Lemma leaf_step : inv parse srt t (SqlLeaf q name) by_ name (compute parse m by_ df).
  Proof.
    pose proof (compute_NoDup parse m by_ df) as HN.
    split; [split; [exact Hby|split; [exact Hname|left; split; reflexivity]]|]. split; [reflexivity|]. split; [|split; [|split; [exact HN|]]].
    - rewrite leaf_obs. apply NoDup_Permutation.
      + apply NoDup_fst_nodup, run_NoDup.
      + apply NoDup_fst_nodup. rewrite map_map. unfold enc. cbn [fst]. rewrite <- (map_map fst (List.map (@Some string))). 
        clear - HN. induction HN as [|k l Hk HN IH]; cbn; constructor; auto. intros Hi. apply in_map_iff in Hi as (k' & E & Hi). apply some_inj in E. congruence.
      + intros [sk u]. rewrite in_map_iff. split.
        * intros H. destruct (query_keys _ _ H) as (k & -> & Hg & ->). destruct (leaf_value_at k Hg) as [C1 C2]. apply lookup_here in C1. rewrite C2 in C1.
          eexists. split; [|exact C1]. unfold enc. cbn [fst snd]. now rewrite unf_fetch.
        * intros ([k x] & E & H). pose proof (key_in_glob k (in_map fst _ _ H)) as Hg. destruct (query_has k Hg) as [u' Hu]. destruct (leaf_value_at k Hg) as [C1 C2].
          rewrite (lookup_In k x _ HN H) in C2. destruct (query_keys _ _ Hu) as (k' & Ek & _ & Eu). apply some_inj in Ek. subst k'. unfold enc in E. cbn [fst snd] in E. injection E as <- <-.
          rewrite C2, unf_fetch, <- Eu. exact Hu.
    - apply Forall_forall. intros [k x] H. pose proof (key_in_glob k (in_map fst _ _ H)) as Hg. destruct (leaf_value_at k Hg) as [C1 C2]. rewrite (lookup_In k x _ HN H) in C2. cbn. rewrite C2. apply no_inf_fetch.
    - apply Forall_forall. intros [k x] H. pose proof (key_in_glob k (in_map fst _ _ H)) as Hg. cbn. destruct Hg as [[-> ->]|(r & _ & _ & E)]; [reflexivity|].
      apply (f_equal (@List.length _)) in E. unfold srow_key in E. rewrite !map_length in E. lia.
  Qed.
  Lemma leaf_nonempty : by_ = [] -> compute parse m by_ df <> [].
  Proof. intros E H. destruct (leaf_value_at []) as [C _]; [left; auto|]. rewrite H in C. destruct C. Qed.
End Leaf.

Section Tree.
  Variables (parse : string -> cond) (srt : list okey -> list env -> list env) (psort : cum_how -> bool -> nat -> rframe -> rframe) (t : stable).
  Hypothesis Hsrt : db_sorts srt.
  Hypothesis Hps : pandas_sorts psort.

  Lemma bottoms_above wh m : forall by_ above loc b fs l by', In (b, fs, l, by') (bottoms wh m by_ above loc) -> incl above fs.
  Proof.
    induction m as [m name|over c IH w|over how asc c IH w|p cond base incl c IH w|d over c IH w|op a IHa b IHb name w|op x c IH name w|op c IH x name w]; intros by_ above loc b' fs l by' H; cbn [bottoms] in H;
    [destruct H as [H|[]]; injection H as _ <- _ _; intros z; auto|
     try (apply IH in H; intros z Hz; apply H, in_or_app; auto) ..].
    apply in_app_or in H as [H|H]; [apply IHa in H|apply IHb in H]; intros z Hz; apply H, in_or_app; auto.
  Qed.
  Lemma some_bottom wh m : forall by_ above loc, exists b fs l by', In (b, fs, l, by') (bottoms wh m by_ above loc).
  Proof.
    induction m as [m name|over c IH w|over how asc c IH w|p cond base incl c IH w|d over c IH w|op a IHa b IHb name w|op x c IH name w|op c IH x name w]; intros by_ above loc; cbn [bottoms]; auto.
    - exists m, above, loc, by_. now left.
    - destruct (IHa by_ (above ++ w) (remove (add (add [] w) loc) wh)) as (b' & fs & l & by' & H). exists b', fs, l, by'. apply in_or_app. auto.
  Qed.

  Variable glob : list string.
  Definition all_fit (m : otree) (by_ above loc : list string) : Prop :=
    forall b fs l by', In (b, fs, l, by') (bottoms glob m by_ above loc) -> leaf_fits parse glob b fs l by' t.
  Lemma nonempty_above m by_ above loc : all_fit m by_ above loc -> ~ In "" above.
  Proof.
    intros H Hi. destruct (some_bottom glob m by_ above loc) as (b & fs & l & by' & Hb). pose proof (bottoms_above _ _ _ _ _ _ _ _ _ Hb) as Ha. destruct (H _ _ _ _ Hb) as (H1 & _).
    destruct (some_leaf b fs) as (lf & p & Hp & Hin). destruct (H1 lf p Hp) as (_ & Hn & _). apply Hn, Hin, Ha, Hi.
  Qed.
  (** the local filters are those above that are not global *)
  Definition placed (above loc : list string) (m : otree) : Prop :=
    ~ In "" loc /\ (forall r, spass parse glob r = true -> spass parse loc r = spass parse above r) /\ (forall p, In p (paths above (ofilter_tree m)) -> incl glob p).
  Lemma placed_child above loc m cls w cs c : ofilter_tree m = FNode cls w cs -> In (ofilter_tree c) cs -> ~ In "" w ->
    placed above loc m -> placed (above ++ w) (remove (add (add [] w) loc) glob) c.
  Proof.
    intros E Hc Hw (H1 & H2 & H3). split; [|split].
    - intros H. apply remove_in in H as [H _]. revert H. apply add_nonempty, add_nonempty. intros [].
    - intros r Hr. rewrite spass_step, spass_app, H2 by assumption. apply andb_comm.
    - intros p Hp. apply H3. rewrite E. destruct cs as [|c0 cs]; [destruct Hc|]. cbn [paths]. apply in_flat_map. eauto.
  Qed.

  Lemma tree_step m : forall by_ above loc, all_fit m by_ above loc -> supported_tree by_ m -> placed above loc m ->
    tree_fits parse psort m by_ (filter (pfilters parse above) (pandas_table t)) ->
    exists F, op_compute parse psort m by_ (filter (pfilters parse above) (pandas_table t)) = Some F /\
      inv parse srt t (tree_sql glob loc (by_ ++ extra_idx m) by_ m) (by_ ++ extra_idx m) (value_name m) F /\ (by_ ++ extra_idx m = [] -> F <> []).
  Proof.
    assert (forall (by_ over l : list string), over <> [] -> by_ ++ over ++ l = [] -> False) as HE.
    { intros by_ over l Ho E. apply app_eq_nil in E as [_ E]. apply app_eq_nil in E as [E _]. contradiction. }
    induction m as [m name|over c IH w|over how asc c IH w|p cond base incl c IH w|d over c IH w|op a IHa b IHb name w|op x c IH name w|op c IH x name w]; intros by_ above loc Hb Hs Hpl Htf.
    - cbn [supported_tree] in Hs. destruct Hs as [Hn Hd]. cbn [extra_idx] in *. rewrite app_nil_r in *.
      exists (compute parse m by_ (filter (pfilters parse above) (pandas_table t))). split; [reflexivity|]. cbn [tree_sql value_name].
      destruct Hpl as (H1 & H2 & H3). specialize (Hb m above loc by_ (or_introl eq_refl)).
      assert (forall l p, In (l, p) (leaves_with_filters above m) -> List.incl glob p) as HG by (intros l p Hp; apply H3; cbn [ofilter_tree]; rewrite paths_leaves; exact (in_map snd _ _ Hp)).
      split; [now apply leaf_step|now apply (leaf_nonempty parse t glob above loc)].
    - pose proof (nonempty_above c (by_ ++ over) (above ++ w) _ Hb) as Hw. assert (~ In "" w) as Hw' by (intros H; apply Hw, in_or_app; auto).
      cbn [supported_tree extra_idx] in Hs. destruct Hs as (Hv & Ho & He & Hs). cbn [tree_fits] in Htf. destruct Htf as [Htf Hfit].
      pose proof (placed_child above loc (ODist over c w) _ _ _ c eq_refl (or_introl eq_refl) Hw' Hpl) as Hpl'. rewrite filter_pfilters_app in *.
      destruct (IH _ _ _ Hb Hs Hpl' Htf) as (F & EF & HF & _). rewrite He in HF, Hv. rewrite app_nil_r in HF, Hv.
      exists (distribution (List.length by_) F). cbn [op_compute extra_idx]. rewrite filter_pfilters_app, EF. split; [reflexivity|]. cbn [tree_sql value_name].
      rewrite He, app_nil_r. split; [|intros E; exfalso; apply (HE by_ over [] Ho); now rewrite app_nil_r]. rewrite add_cols_app by (now apply supported_nodup in Hs). apply dist_step; auto.
    - pose proof (nonempty_above c (by_ ++ over) (above ++ w) _ Hb) as Hw. assert (~ In "" w) as Hw' by (intros H; apply Hw, in_or_app; auto).
      cbn [supported_tree extra_idx] in Hs. destruct Hs as (Hv & Ho & He & Hv1 & Hov & Hs). cbn [tree_fits] in Htf. destruct Htf as [Htf Hfit].
      pose proof (placed_child above loc (OCum over how asc c w) _ _ _ c eq_refl (or_introl eq_refl) Hw' Hpl) as Hpl'. rewrite filter_pfilters_app in *.
      destruct (IH _ _ _ Hb Hs Hpl' Htf) as (F & EF & HF & _). rewrite He in HF, Hv. rewrite app_nil_r in HF, Hv.
      eexists. cbn [op_compute extra_idx]. rewrite filter_pfilters_app, EF. split; [reflexivity|]. cbn [tree_sql value_name].
      rewrite He, app_nil_r. split; [|intros E; exfalso; apply (HE by_ over [] Ho); now rewrite app_nil_r]. rewrite add_cols_app by (now apply supported_nodup in Hs). apply cum_op_step; auto.
    - pose proof (nonempty_above c (by_ ++ cond) (above ++ w) _ Hb) as Hw. assert (~ In "" w) as Hw' by (intros H; apply Hw, in_or_app; auto).
      cbn [supported_tree extra_idx] in Hs. destruct Hs as (Hv & Ho & He & Hs). cbn [tree_fits] in Htf. destruct Htf as [Htf Hfit].
      pose proof (placed_child above loc (OChange p cond base incl c w) _ _ _ c eq_refl (or_introl eq_refl) Hw' Hpl) as Hpl'. rewrite filter_pfilters_app in *.
      destruct (IH _ _ _ Hb Hs Hpl' Htf) as (F & EF & HF & _). rewrite <- app_assoc in HF.
      destruct (change_step parse srt t p by_ cond base (extra_idx c) incl (value_name c) (tree_sql glob (remove (add (add [] w) loc) glob) (by_ ++ cond ++ extra_idx c) (by_ ++ cond) c) F He HF (Hfit F EF)) as (res & Er & Hres).
      { cbn [value_name] in Hv. exact Hv. }
      exists res. cbn [op_compute extra_idx]. rewrite filter_pfilters_app, EF. split; [destruct p; exact Er|]. cbn [tree_sql value_name].
      split; [|intros E; exfalso; now apply (HE by_ cond (extra_idx c) Ho)]. rewrite add_cols_app by (now apply supported_nodup in Hs). exact Hres.
    - pose proof (nonempty_above c (by_ ++ over) (above ++ w) _ Hb) as Hw. assert (~ In "" w) as Hw' by (intros H; apply Hw, in_or_app; auto).
      cbn [supported_tree extra_idx] in Hs. destruct Hs as (Hv & Ho & (m & name & ->) & Hcv & Hs). cbn [tree_fits] in Htf. destruct Htf as [Htf Hfit].
      pose proof (placed_child above loc (ODiv d over (OLeaf m name) w) _ _ _ (OLeaf m name) eq_refl (or_introl eq_refl) Hw' Hpl) as Hpl'. rewrite filter_pfilters_app in *.
      destruct (IH _ _ _ Hb Hs Hpl' Htf) as (F & EF & HF & _). cbn [extra_idx] in HF, Hv. rewrite app_nil_r in HF, Hv.
      eexists. split; [cbn [op_compute]; rewrite filter_pfilters_app; cbn [op_compute] in EF; rewrite EF; reflexivity|]. cbn [tree_sql value_name]. rewrite app_nil_r.
      rewrite add_cols_app by (now apply supported_nodup in Hs). cbn [value_name] in *. split.
      + apply (div_step parse srt t Hsrt by_ over name _ F d HF (Hfit F EF)); auto.
      + intros E. cbn [extra_idx] in E. rewrite ?app_nil_r in E. subst by_. destruct d; discriminate.
    - pose proof Hs as Hs0. pose proof (nested_app _ _ _ _ _ _ Hs0) as HN. destruct (fresh_values _ _ _ _ _ _ Hs0) as [Va Vb]. destruct (own_index glob (remove (add (add [] w) loc) glob) _ _ _ _ _ _ Hs0) as [Ea Eb].
      assert (all_fit a by_ (above ++ w) (remove (add (add [] w) loc) glob)) as Hba by (intros ? ? ? ? H; apply (Hb _ _ _ _ (in_or_app _ _ _ (or_introl H)))).
      assert (all_fit b by_ (above ++ w) (remove (add (add [] w) loc) glob)) as Hbb by (intros ? ? ? ? H; apply (Hb _ _ _ _ (in_or_app _ _ _ (or_intror H)))).
      pose proof (nonempty_above _ _ _ _ Hba) as Hw. assert (~ In "" w) as Hw' by (intros H; apply Hw, in_or_app; auto).
      pose proof (placed_child above loc (OBin op a b name w) _ _ _ a eq_refl (or_introl eq_refl) Hw' Hpl) as Hpa.
      pose proof (placed_child above loc (OBin op a b name w) _ _ _ b eq_refl (or_intror (or_introl eq_refl)) Hw' Hpl) as Hpb.
      cbn [tree_fits] in Htf. cbn zeta in Htf. rewrite filter_pfilters_app in Htf. destruct Htf as (Ta & Tb & Hfit). cbn [supported_tree] in Hs. destruct Hs as (Hv & Ha & Hb' & Hrun & _).
      destruct (IHa _ _ _ Hba Ha Hpa Ta) as (Fa & EFa & HFa & Na). destruct (IHb _ _ _ Hbb Hb' Hpb Tb) as (Fb & EFb & HFb & Nb).
      eexists. cbn [op_compute]. rewrite filter_pfilters_app, EFa, EFb. split; [reflexivity|]. cbn [tree_sql value_name] in *. rewrite Ea, Eb. cbn [extra_idx] in *. rewrite <- wider_app in *. split.
      + apply (composite_step parse srt t Hsrt op name _ _ (value_name a) (value_name b) (running a) (running b)); auto; now apply tree_ok.
      + intros E. destruct (nested_wider _ _ HN) as [W1 W2]. rewrite E in W1, W2. apply incl_l_nil in W1. apply incl_l_nil in W2. unfold align_levels. rewrite W1, W2. cbn [List.length Nat.compare]. specialize (Na W1).
        unfold align. destruct (sort_uniq (List.map fst Fa ++ List.map fst Fb)) as [|k l] eqn:EK; [|discriminate]. exfalso. destruct Fa as [|[k x] Fa]; [congruence|].
        assert (In k (sort_uniq (List.map fst ((k, x) :: Fa) ++ List.map fst Fb))) as H by (apply sort_uniq_In, in_or_app; left; now left). rewrite EK in H. destruct H.
    - pose proof (nonempty_above c by_ (above ++ w) _ Hb) as Hw. assert (~ In "" w) as Hw' by (intros H; apply Hw, in_or_app; auto).
      pose proof (placed_child above loc (OConstL op x c name w) _ _ _ c eq_refl (or_introl eq_refl) Hw' Hpl) as Hpl'.
      cbn [tree_fits] in Htf. cbn zeta in Htf. rewrite filter_pfilters_app in Htf. destruct Htf as (Htf & Hfit). cbn [supported_tree] in Hs. destruct Hs as (Hv & Hs).
      destruct (IH _ _ _ Hb Hs Hpl' Htf) as (F & EF & HF & HNe). cbn [extra_idx op_compute tree_sql value_name] in *. rewrite filter_pfilters_app, EF. eexists. split; [reflexivity|]. split.
      + apply (const_step parse srt t _ _ (opS op (Some x)) (num_op op (Fin x)) ) with (v := value_name c) (run := running c); auto.
        * intros e rows. now rewrite sexpr_op.
        * intros all pre e y. now rewrite value_vop.
        * apply keeps_l.
        * now apply tree_ok.
        * intros k y Hy. destruct HF as (_ & _ & _ & N & _). rewrite Forall_forall in N. apply (op_agree op (Fin x) y); [split; discriminate|exact (N _ Hy)|]. intros E ->. left. f_equal. now apply (Hfit F EF E k).
      + intros E. specialize (HNe E). destruct F; [congruence|discriminate].
    - pose proof (nonempty_above c by_ (above ++ w) _ Hb) as Hw. assert (~ In "" w) as Hw' by (intros H; apply Hw, in_or_app; auto).
      pose proof (placed_child above loc (OConstR op c x name w) _ _ _ c eq_refl (or_introl eq_refl) Hw' Hpl) as Hpl'.
      cbn [tree_fits] in Htf. cbn zeta in Htf. rewrite filter_pfilters_app in Htf. destruct Htf as (Htf & Hfit). cbn [supported_tree] in Hs. destruct Hs as (Hv & Hs).
      destruct (IH _ _ _ Hb Hs Hpl' Htf) as (F & EF & HF & HNe). cbn [extra_idx op_compute tree_sql value_name] in *. rewrite filter_pfilters_app, EF. eexists. split; [reflexivity|]. split.
      + apply (const_step parse srt t _ _ (fun y => opS op y (Some x)) (fun y => num_op op y (Fin x))) with (v := value_name c) (run := running c); auto.
        * intros e rows. now rewrite sexpr_op.
        * intros all pre e y. now rewrite value_vop.
        * apply keeps_r.
        * now apply tree_ok.
        * intros k y Hy. destruct HF as (_ & _ & _ & N & _). rewrite Forall_forall in N. apply (op_agree op y (Fin x)); [exact (N _ Hy)|split; discriminate|]. intros E E0. injection E0 as E0. now apply (Hfit F EF E E0 k).
      + intros E. specialize (HNe E). destruct F; [congruence|discriminate].
  Qed.
End Tree.

Lemma nonempty_global t : ~ In "" (get_global_filter t).
Proof.
  destruct t as [cls w cs]. cbn [get_global_filter]. destruct (mem cls _); [apply add_nonempty; intros []|]. destruct cs as [|c cs]; [apply add_nonempty; intros []|apply add_nonempty, add_nonempty; intros []].
Qed.

Theorem whole_tree parse srt psort t m by_ : db_sorts srt -> pandas_sorts psort -> supported_tree by_ m -> leaves_fit parse m by_ t -> tree_fits parse psort m by_ (pandas_table t) ->
  exists F, op_compute parse psort m by_ (pandas_table t) = Some F /\ well_scoped (op_to_sql m by_) = true /\
    all_columns (op_to_sql m by_) = by_ ++ extra_idx m ++ [value_name m] /\
    same_rows (shown (by_ ++ extra_idx m) (value_name m) (run_sql parse srt (op_to_sql m by_) t)) F.
Proof.
  intros H1 H2 H3 H4 H5.
  assert (filter (pfilters parse []) (pandas_table t) = pandas_table t) as E0 by (apply filter_all; reflexivity).
  destruct (tree_step parse srt psort t H1 H2 (get_global_filter (ofilter_tree m)) m by_ [] [] H4 H3) as (F & EF & HF & _).
  - split; [intros []|]. split; [auto|]. intros p Hp f Hf. apply (global_in_paths _ _ _ f) in Hp; auto. intros ->. now apply nonempty_global in Hf.
  - now rewrite E0.
  - rewrite E0 in EF. exists F. split; [exact EF|]. split; [now apply query_ok|]. split; [now apply query_ok|]. unfold op_to_sql.
    rewrite add_cols_app by (now apply nodup_index). apply same_rows_enc. split; apply HF.
Qed.
