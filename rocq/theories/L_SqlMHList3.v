(** MH over a MetricList in SQL and in pandas. *)
From Coq Require Import Reals List Bool String Arith Permutation Lia Lra.
From Verif Require Import M_Num M_Frame L_Frame M_Ops S_Ops L_OpsA L_OpsB M_SqlGlobal S_SqlGlobal L_SqlGlobal M_SqlLeaf S_SqlLeaf L_SqlLeaf L_SqlLeaf2 M_SqlOps S_SqlOps L_SqlOps L_SqlOps2 L_SqlOps5 L_SqlOps7 L_SqlBin L_SqlBin3 L_SqlScope M_SqlList S_SqlList L_SqlList M_SqlJackknife M_SqlJackFast L_SqlJack7 M_SqlMixedJack M_SqlMH S_SqlMH L_SqlMH2 L_SqlMH3 M_OpList M_SqlMHList S_SqlMHList L_SqlMHList1 L_SqlMHList2.
Import ListNotations.
Open Scope string_scope.
Open Scope list_scope.

Lemma alone_children parse psort x s df r : mh_children parse psort (mh_alone x r) s df = ratio_children parse psort x s df r.
Proof. unfold mh_children, ratio_children. cbv zeta. cbn [mh_alone mh_child_where mh_where mh_numer mh_denom]. rewrite <- filter_pfilters_app. reflexivity. Qed.
Lemma alone_mh parse psort x s df r : mh_pandas parse psort (mh_alone x r) s df = ratio_mh parse psort x s df r.
Proof. unfold mh_pandas, ratio_mh. now rewrite alone_children. Qed.
Lemma mh_keys_nodup n nc ns base incl_base fr res : mh n nc ns base incl_base fr = Some res -> NoDup (List.map fst res).
Proof.
  unfold mh. destruct (xs n nc base fr) as [b|]; [|discriminate]. intros E. injection E as <-. set (gk := sort_uniq _).
  assert (forall f : list string -> num, NoDup (List.map fst (List.map (fun g => (g, f g)) gk))) as H by (intros f; rewrite map_map; cbn [fst]; rewrite map_id; apply ksorted_NoDup, sort_uniq_sorted).
  destruct incl_base; [apply H|]. rewrite filter_map_comm. rewrite map_map. cbn [fst]. rewrite map_id. apply NoDup_filter, ksorted_NoDup, sort_uniq_sorted.
Qed.

Section Whole.
  Variables (parse : string -> cond) (srt : list okey -> list env -> list env) (psort : cum_how -> bool -> nat -> rframe -> rframe) (x : mhl_op) (s : list string) (t : stable).
  Hypothesis Hdb : db_sorts srt.
  Hypothesis Hps : pandas_sorts psort.
  Hypothesis Hsup : supported_mhl x s.
  Hypothesis Hleaf : mhl_leaves_fit parse x s t.
  Hypothesis Hfits : mhl_fits parse psort x s (pandas_table t).
  Notation I := (mhl_by x s).
  Notation glob := (get_global_filter (mhl_filter_tree x)).
  Variable cols : list (string * sexpr).
  Notation raw := (LLeaf cols glob I).
  Hypothesis Hraw : mhl_raw x s = Some raw.
  Hypothesis Hcols : NoDup (List.map fst cols).
  Hypothesis Hall : forall r m, In r (l_ratios x) -> m = r_numer r \/ m = r_denom r -> exists a, In (a, expr_of x r m) cols.
  Notation Raw := (run_table parse srt raw t).
  Notation vn r := (alias x s cols r (r_numer r)).
  Notation vd r := (alias x s cols r (r_denom r)).
  Notation J := (joined s (l_cond x) (l_strata x) [] (l_base x) (l_include_base x) Raw).
  Notation obj' r := (obj s (l_cond x) [] (vn r) (vd r)).
  Notation key := (fun p : row * row => List.map (fun c => label (fst p c)) (mhl_index x s)).
  Notation K := (nodup skey_dec (List.map key J)).

  Lemma obj_key r p : fst (obj' r p) = key p.
  Proof. unfold obj, mhl_index. cbn [fst]. now rewrite app_nil_r. Qed.
  Definition cell_of (r : mh_ratio) (k : skey) : num := fetch (per_group (List.map (obj' r) J) k).

  Lemma ratio_column r : In r (l_ratios x) -> exists res, ratio_mh parse psort x s (pandas_table t) r = Some res /\ column_of (fun k : skey => k) K (cell_of r) res.
  Proof.
    intros Hr. destruct (children_frames x s Hsup parse srt psort t Hdb Hps Hleaf r Hr) as (a & b & Hch & Ia & Ib).
    pose proof (raw_column x s Hsup parse srt t cols Hraw Hcols Hall r _ a Hr (or_introl eq_refl) Ia) as Ca.
    pose proof (raw_column x s Hsup parse srt t cols Hraw Hcols Hall r _ b Hr (or_intror eq_refl) Ib) as Cb.
    pose proof (raw_nodup x s Hsup parse srt psort t Hdb Hps Hleaf cols Hraw Hcols Hall) as HN.
    destruct (alias_there x s Hsup cols Hraw Hall r _ Hr (or_introl eq_refl)) as [_ Nn]. destruct (alias_there x s Hsup cols Hraw Hall r _ Hr (or_intror eq_refl)) as [_ Nd].
    set (fr := List.map (fun k => (k, (lookup k a, lookup k b))) _) in Hch.
    assert (Permutation (list_shown I [vn r; vd r] Raw) (List.map (fun kv => (List.map Some (fst kv), [fst (snd kv); snd (snd kv)])) fr)) as HP.
    { pose proof (many_columns _ Raw HN _ _ (Forall2_cons _ _ Ca (Forall2_cons _ _ Cb (Forall2_nil _)))) as HM. specialize (HM ltac:(discriminate)). cbn [List.map] in HM. unfold list_shown. cbn [List.map].
      etransitivity; [exact HM|]. unfold concat_frames, fr, encl. rewrite !map_map. cbn [flat_map fst snd List.map]. rewrite app_nil_r. apply Permutation_refl. }
    destruct Ia as (_ & _ & _ & Fa & _ & La). destruct Ib as (_ & _ & _ & Fb & _ & Lb).
    pose proof (Hfits r fr Hr) as Hfit. rewrite alone_children in Hfit. specialize (Hfit Hch).
    assert (forall k q, In (k, q) fr -> (In k (List.map fst a) \/ In k (List.map fst b)) /\ q = (lookup k a, lookup k b)) as Hin.
    { intros k q H. unfold fr in H. apply in_map_iff in H as (k' & E & H). injection E as -> <-. split; [|reflexivity]. apply nodup_In, in_app_iff in H. exact H. }
    assert (NoDup (List.map fst fr)) as Hd by (unfold fr; rewrite map_map; cbn [fst]; rewrite map_id; apply NoDup_nodup).
    assert (forall k q, In (k, q) fr -> List.length k = List.length I) as Hl.
    { intros k q H. rewrite Forall_forall in La, Lb. apply Hin in H as ([H|H] & _); apply in_map_iff in H as (w & <- & H); [now apply La|now apply Lb]. }
    assert (forall fr0 k, Forall (fun w : list string * num => no_inf (snd w)) fr0 -> no_inf (lookup k fr0)) as Hlk.
    { intros fr0 k. induction 1 as [|[k' v] l Hv Hl0 IH]; [split; discriminate|]. cbn [lookup]. destruct (key_eqb k' k); auto. }
    assert (forall k q, In (k, q) fr -> no_inf (fst q) /\ no_inf (snd q)) as Hfin by (intros k q H; apply Hin in H as [_ ->]; split; now apply Hlk).
    assert (exists res, mh (List.length s) (List.length (l_cond x)) (List.length (l_strata x)) (l_base x) (l_include_base x) fr = Some res) as [res Hres].
    { destruct Hfit as ((k & q & Hk & Hkb) & _). unfold mh. destruct (xs (List.length s) (List.length (l_cond x)) (l_base x) fr) eqn:E; [eauto|]. rewrite xs_None in E. exfalso. exact (E _ _ Hk Hkb). }
    exists res. split; [unfold ratio_mh; now rewrite Hch|].
    pose proof (by_nodup x s Hsup) as HI. destruct Hsup as (_ & Hb & _).
    pose proof (mh_groups s (l_cond x) (l_strata x) [] (l_base x) (l_include_base x) (vn r) (vd r) Raw fr) as HG.
    unfold mhl_by in *. rewrite app_nil_r in HG. specialize (HG HI Nn Nd Hb HP Hd Hl Hfin Hfit res Hres).
    unfold column_of. unfold cell_of. etransitivity; [|exact HG]. unfold groups. rewrite !map_map. cbn [fst snd]. rewrite (map_ext (fun p => fst (obj' r p)) key) by (intros p; apply obj_key). apply Permutation_refl.
  Qed.
  Lemma all_columns l : incl l (l_ratios x) -> exists ress, all_some (List.map (ratio_mh parse psort x s (pandas_table t)) l) = Some ress /\ Forall2 (column_of (fun k : skey => k) K) (List.map cell_of l) ress.
  Proof.
    induction l as [|r l IH]; intros H; [exists []; split; [reflexivity|constructor]|]. destruct IH as (ress & E & HF); [intros a Ha; apply H; now right|].
    destruct (ratio_column r (H r (or_introl eq_refl))) as (res & Er & Hc). exists (res :: ress). split; [cbn [List.map all_some]; now rewrite Er, E|]. now constructor.
  Qed.

  Lemma columns_same : mhl_columns x s raw = List.map (fun r => (mh_name r, (mhl_weighted (vn r) (vd r) "MHRaw" "MHBase", mhl_weighted (vn r) (vd r) "MHBase" "MHRaw"))) (l_ratios x).
  Proof.
    unfold mhl_columns. cbv zeta. rewrite add_columns_all; cbn [app].
    - reflexivity.
    - rewrite map_map. cbn [fst]. apply Hsup.
    - pose proof Hsup as (_ & _ & _ & _ & _ & _ & _ & HP).
      assert (forall l, incl l (l_ratios x) -> ForallOrdPairs (fun r r' => ~ (renamed (mhl_child_sql x s r (r_numer r)) (mhl_child_sql x s r' (r_numer r')) /\ renamed (mhl_child_sql x s r (r_denom r)) (mhl_child_sql x s r' (r_denom r')))) l ->
        ForallOrdPairs (fun c c' : string * (vx * vx) => snd c <> snd c') (List.map (fun r => (mh_name r, (mhl_weighted (vn r) (vd r) "MHRaw" "MHBase", mhl_weighted (vn r) (vd r) "MHBase" "MHRaw"))) l)) as G; [|now apply (G _ (incl_refl _))].
      assert (forall r r' m m', In r (l_ratios x) -> In r' (l_ratios x) -> m = r_numer r \/ m = r_denom r -> m' = r_numer r' \/ m' = r_denom r' -> alias x s cols r m = alias x s cols r' m' -> renamed (mhl_child_sql x s r m) (mhl_child_sql x s r' m')) as HR.
      { intros r r' m m' Hr Hr' Hm Hm' E. destruct (alias_there x s Hsup cols Hraw Hall r m Hr Hm) as [H1 _]. destruct (alias_there x s Hsup cols Hraw Hall r' m' Hr' Hm') as [H2 _]. rewrite E in H1.
        apply (assoc_In _ _ _ Hcols) in H1. apply (assoc_In _ _ _ Hcols) in H2. assert (expr_of x r m = expr_of x r' m') as Ee by congruence.
        assert (forall r m, In r (l_ratios x) -> m = r_numer r \/ m = r_denom r -> is_leaf m) as HL by (intros r0 m0 H0 [->| ->]; now apply (ratio_leaves x s Hsup r0 H0)).
        rewrite (child_leaf x s r m (HL r m Hr Hm)), (child_leaf x s r' m' (HL r' m' Hr' Hm')), Ee. constructor. }
      induction l as [|r l IH]; intros Hi Ho; [constructor|]. inversion Ho as [|? ? O1 O2]; subst. cbn [List.map]. constructor; [|apply IH; [intros a Ha; apply Hi; now right|exact O2]].
      apply Forall_forall. intros c Hc. apply in_map_iff in Hc as (r' & <- & Hr'). cbn [snd]. intros E. injection E as En Ed _ _. rewrite Forall_forall in O1. apply (O1 r' Hr').
      split; apply HR; auto; try (apply Hi; auto; now left); try (apply Hi; now right).
  Qed.

  Lemma shown_columns : exists rows, mhl_sql parse srt x s t = Some (List.map mh_name (l_ratios x), rows) /\
    list_shown (mhl_index x s) (List.map mh_name (l_ratios x)) rows = List.map (fun k => (k, List.map (fun f => f k) (List.map cell_of (l_ratios x)))) K.
  Proof.
    unfold mhl_sql. rewrite Hraw. cbv zeta. rewrite columns_same. rewrite map_map. cbn [fst]. eexists. split; [reflexivity|].
    match goal with |- context [filter ?f (left_join ?u ?a ?b)] => replace (filter f (left_join u a b)) with J by (unfold joined, mhl_using, mhl_index; rewrite app_nil_r; reflexivity) end.
    pose proof Hsup as (_ & _ & _ & _ & _ & HN & Hv & _). pose proof (by_nodup x s Hsup) as HI.
    assert (NoDup (mhl_index x s)) as Hd by (unfold mhl_by in HI; rewrite app_assoc in HI; apply (Permutation_NoDup (Permutation_app_comm _ _)) in HI; now apply NoDup_tail in HI).
    unfold list_shown. rewrite map_map. apply map_ext_in. intros k Hk. rewrite nodup_In in Hk. apply in_map_iff in Hk as (p & Ek & Hp).
    assert (List.length k = List.length (mhl_index x s)) as Hlen by (rewrite <- Ek; now rewrite map_length).
    f_equal.
    - etransitivity; [|exact (assoc_combine_map _ _ Hlen Hd)]. apply map_ext_in. intros c Hc. destruct (assoc_in _ _ _ Hlen Hc) as [l ->]. apply label_of_label.
    - rewrite !map_map. apply map_ext_in. intros r Hr. rewrite assoc_out by now apply Hv.
      assert (NoDup (List.map fst (List.map (fun r => (mh_name r, (mhl_weighted (vn r) (vd r) "MHRaw" "MHBase", mhl_weighted (vn r) (vd r) "MHBase" "MHRaw"))) (l_ratios x)))) as HN' by (rewrite map_map; exact HN).
      rewrite (assoc_In _ _ _ HN' (in_map (fun r => (mh_name r, (mhl_weighted (vn r) (vd r) "MHRaw" "MHBase", mhl_weighted (vn r) (vd r) "MHBase" "MHRaw"))) _ _ Hr)).
      rewrite number_of_number. unfold cell_of, per_group, fin. f_equal.
      assert (forall f : row * row -> option R, List.map f (filter (fun p => if skey_dec (key p) k then true else false) J) = List.map f (filter (fun p => same_key k (obj' r p)) J)) as EF.
      { intros f. f_equal. apply filter_ext. intros q. unfold same_key. rewrite obj_key. reflexivity. }
      rewrite !EF. do 2 f_equal; f_equal; f_equal; rewrite filter_map_comm, map_map; reflexivity.
  Qed.
End Whole.

Theorem mhl_same parse srt psort x s t : db_sorts srt -> pandas_sorts psort -> supported_mhl x s -> mhl_leaves_fit parse x s t -> mhl_fits parse psort x s (pandas_table t) ->
  exists rows result, mhl_sql parse srt x s t = Some (List.map mh_name (l_ratios x), rows) /\ mhl_pandas parse psort x s (pandas_table t) = Some (List.map mh_name (l_ratios x), result) /\
    Permutation (list_shown (mhl_index x s) (List.map mh_name (l_ratios x)) rows) (List.map (fun kv => (List.map Some (fst kv), snd kv)) result).
Proof.
  intros Hdb Hps Hsup Hleaf Hfits. destruct (raw_exists x s Hsup) as (cols & Hraw & Hcols & Hall).
  destruct (shown_columns parse srt x s t Hsup cols Hraw Hcols Hall) as (rows & Hr & HS).
  destruct (all_columns parse srt psort x s t Hdb Hps Hsup Hleaf Hfits cols Hraw Hcols Hall (l_ratios x) (incl_refl _)) as (ress & Ep & HF).
  exists rows, (concat_frames ress). split; [exact Hr|]. split.
  - unfold mhl_pandas. destruct Hsup as (_ & _ & Hne & _). clear - Hne Ep. destruct (l_ratios x) as [|r0 rs]; [congruence|]. now rewrite Ep.
  - rewrite HS. apply (many_columns (fun k : skey => k)); [rewrite map_id; apply NoDup_nodup|exact HF|]. destruct Hsup as (_ & _ & Hne & _). clear - Hne. destruct (l_ratios x); [congruence|discriminate].
Qed.
