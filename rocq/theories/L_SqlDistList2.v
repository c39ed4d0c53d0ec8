(** Every result column is the distribution of that metric alone. *)
From Coq Require Import Reals List Bool String Arith Permutation Lia Lra.
From Verif Require Import M_Num M_Frame L_Frame M_Ops S_Ops L_OpsA L_OpsB M_SqlGlobal S_SqlGlobal L_SqlGlobal M_SqlLeaf S_SqlLeaf L_SqlLeaf L_SqlLeaf2 M_SqlOps S_SqlOps L_SqlOps L_SqlOps2 L_SqlOps7 L_SqlBin L_SqlScope M_SqlList S_SqlList L_SqlList M_OpList S_OpList L_OpList2 L_OpList3 L_OpList4 L_OpList6 P_OpList M_SqlMHList S_SqlMHList L_SqlMHList1 L_SqlMHList2 M_SqlDistList S_SqlDistList L_SqlOps5 L_SqlChangeList1 L_SqlChangeList3 L_SqlDistList1.
Import ListNotations.
Open Scope string_scope.
Open Scope list_scope.

Lemma append_inj_l s : forall a b, String.append s a = String.append s b -> a = b.
Proof. induction s as [|c s IH]; cbn; intros a b E; [exact E|]. injection E as E. auto. Qed.

Section Rows.
  Variables (x : dl_op) (s : list string).
  Hypothesis Hsup : supported_dl x s.
  Notation I := (dl_index x s).
  Notation glob := (get_global_filter (dl_filter_tree x)).
  Notation raw := (LLeaf (raw_cols x) glob I).
  Notation vn := value_name.
  Notation N := (List.map vn (d_metrics x)).
  Notation n := (List.length s).
  Notation dn m := (String.append "Distribution of " (vn m)).
  Notation ratio m := (VDiv (VRef (Plain (vn m))) (VSumOver (vn m) s)).

  Lemma all_columns_are : lall_columns raw = I ++ N.
  Proof.
    unfold lall_columns. cbn [lgroupby]. assert (lcolumns raw = N) as -> by (cbn [lcolumns]; unfold raw_cols; rewrite map_map; reflexivity).
    f_equal. apply filter_all. intros c Hc. apply negb_true_iff, mem_false. apply in_map_iff in Hc as (m & <- & Hm). now apply name_free.
  Qed.
  Definition cols := List.map (fun m => (dn m, ratio m)) (d_metrics x).
  Lemma cols_nodup : NoDup (List.map fst cols).
  Proof. unfold cols. rewrite map_map. cbn [fst]. rewrite <- (map_map vn (String.append "Distribution of ")). apply FinFun.Injective_map_NoDup; [intros a b E; now apply append_inj_l in E|apply Hsup]. Qed.
  Lemma columns_are : dl_columns x s raw = cols.
  Proof.
    unfold dl_columns. rewrite all_columns_are. cbv zeta. rewrite filter_app.
    rewrite filter_none by (intros c Hc; apply negb_false_iff; now apply mem_in).
    rewrite filter_all by (intros c Hc; apply negb_true_iff, mem_false; apply in_map_iff in Hc as (m & <- & Hm); now apply name_free). cbn [app]. rewrite map_map.
    change (List.map _ (d_metrics x)) with cols. rewrite add_columns_all; [reflexivity|exact cols_nodup|]. cbn [app].
    assert (NoDup N) as HN by apply Hsup. apply nodup_pairs in HN. revert HN. unfold cols. apply pairs_map. intros m m' _ _ Hv E. apply Hv. cbn [snd] in E. injection E as E _. exact E.
  Qed.

  Section Data.
  Variables (parse : string -> cond) (srt : list okey -> list env -> list env) (psort : cum_how -> bool -> nat -> rframe -> rframe) (t : stable).
  Hypothesis Hdb : db_sorts srt.
  Hypothesis Hps : pandas_sorts psort.
  Hypothesis Hleaf : dl_leaves_fit parse x s t.
  Hypothesis Hfits : dl_fits parse psort x s (pandas_table t).
  Notation Raw := (run_table parse srt raw t).
  Notation child := (child_of parse psort (dist_of x) (d_where x) (d_list_where x) s (pandas_table t)).
  Notation labels r := (List.map (fun c => label (r c)) I).
  Notation envs := (List.map plain_env Raw).
  Definition Rows : list row := List.map (fun e : env => fun c => if mem c I then e (Plain c) else match assoc c cols with Some v => of_number (value envs [] e v) | None => Null end) envs.
  Lemma sql_is : dl_sql parse srt x s t = Some (List.map (fun m => dn m) (d_metrics x), Rows).
  Proof. unfold dl_sql. rewrite raw_is by exact Hsup. cbv zeta. rewrite columns_are. unfold Rows, cols. rewrite map_map. reflexivity. Qed.

  Lemma metric_column m : In m (d_metrics x) -> exists F, child m = Some F /\
    Permutation (obs I (dn m) Rows) (List.map enc (distribution n F)) /\ Forall (fun r => no_inf (snd r)) (distribution n F) /\ NoDup (List.map fst (distribution n F)).
  Proof.
    intros Hm. destruct (child_inv x s Hsup parse srt psort t Hdb Hps Hleaf m Hm) as (F & EF & (_ & _ & HP & HF & Hd & _) & _). pose proof (Hfits m F Hm EF) as Hfit.
    rewrite <- (own_column x s Hsup parse srt t m Hm) in HP.
    assert (~ In (dn m) I) as Hv by (destruct Hsup as (_ & H & _); now destruct (H m Hm) as (_ & _ & ?)).
    assert (assoc (dn m) cols = Some (ratio m)) as Ha by (apply L_SqlList.assoc_In; [exact cols_nodup|unfold cols; apply in_map_iff; now exists m]).
    assert (distribution n F = List.map (fun r => (fst r, xdiv (snd r) (xsum (vals n (firstn n (fst r)) F)))) F) as ED.
    { unfold distribution. apply map_ext_in. intros r Hr. cbn. now rewrite level_total. }
    exists F. split; [exact EF|]. split; [|split].
    - set (H := fun kv : skey * option R => (fst kv, vdiv (snd kv) (ssum (List.map (fun e => num_at e (vn m)) (filter (fun e => if skey_dec (firstn n (fst kv)) (key_of s e) then true else false) envs))))).
      transitivity (List.map H (obs I (vn m) Raw)).
      + unfold obs, Rows. rewrite !map_map. erewrite map_ext; [apply Permutation_refl|]. intros r. unfold H. cbn [fst snd]. f_equal.
        * apply map_ext_in. intros c Hc. now rewrite (proj2 (mem_in c I) Hc).
        * rewrite (proj2 (mem_false _ I) Hv), Ha, number_of_number. cbn [value]. unfold same_key. do 3 f_equal. unfold dl_index. rewrite (key_of_firstn s (d_over x) (plain_env r)). reflexivity.
      + rewrite HP. rewrite map_map, ED, map_map. erewrite map_ext_in; [apply Permutation_refl|].
        intros [k v] Hx. unfold H, enc. cbn [fst snd]. f_equal. rewrite firstn_some.
        rewrite (ssum_perm _ _ (partition_enc s (d_over x) (vn m) Raw F k HP)). symmetry. now apply dist_value.
    - rewrite ED. apply Forall_forall. intros r Hr. apply in_map_iff in Hr as [[k v] [<- Hx]]. cbn. now apply dist_value.
    - rewrite distribution_index. exact Hd.
  Qed.
  Notation own m := (op_compute parse psort (alone (dist_of x) (d_where x) (d_list_where x) m) s (pandas_table t)).
  Notation rkey := (fun w : row => labels w).
  Notation cell m := (fun w : row => fetch (number (w (dn m)))).
  Lemma metric_shown m : In m (d_metrics x) -> exists res, own m = Some res /\ column_of rkey Rows (cell m) res.
  Proof.
    intros Hm. destruct (metric_column m Hm) as (F & EF & HP & Hfin & _). exists (distribution n F). split; [rewrite alone_eq, EF; reflexivity|].
    unfold column_of. apply (Permutation_map (fun kv => (fst kv, fetch (snd kv)))) in HP. unfold obs in HP. rewrite !map_map in HP. cbn [fst snd] in HP. etransitivity; [exact HP|].
    rewrite (map_ext_in _ encs); [apply Permutation_refl|]. intros kv Hkv. unfold enc, encs. cbn [fst snd]. f_equal. rewrite Forall_forall in Hfin. now apply fetch_unf, Hfin.
  Qed.

  Variable lsort : bool -> nat -> wframe -> wframe.
  Hypothesis Hfs : frames_sort psort lsort.
  Notation df := (pandas_table t).
  Lemma columns_all l : incl l (d_metrics x) -> exists ress, Forall2 (fun m res => own m = Some res) l ress /\ Forall2 (column_of rkey Rows) (List.map (fun m => cell m) l) ress.
  Proof.
    induction l as [|m l IH]; intros H; [exists []; split; constructor|]. destruct IH as (ress & E & HF); [intros a Ha; apply H; now right|].
    destruct (metric_shown m (H m (or_introl eq_refl))) as (res & Er & Hc). exists (res :: ress). split; constructor; assumption.
  Qed.
  Lemma lop_ok : lop_supported (dist_of x) (d_metrics x).
  Proof. split; [|exact Coq.Init.Logic.I]. intros m Hm. pose proof (leaf_in x s Hsup m Hm) as Hl. destruct m; try destruct Hl. exact Coq.Init.Logic.I. Qed.
  Lemma some_metric : exists m, In m (d_metrics x).
  Proof. destruct Hsup as (Hne & _). clear - Hne. destruct (d_metrics x) as [|m ms]; [congruence|]. exists m. now left. Qed.
  Lemma rows_nodup : NoDup (List.map rkey Rows).
  Proof.
    destruct some_metric as [m Hm]. destruct (metric_column m Hm) as (F & _ & HP & _ & HN). apply (Permutation_map fst) in HP. unfold obs in HP. rewrite !map_map in HP. cbn [fst enc] in HP.
    apply (Permutation_NoDup (Permutation_sym HP)). rewrite <- map_map. apply FinFun.Injective_map_NoDup; [intros u v E; now apply some_inj in E|exact HN].
  Qed.
  Lemma whole : exists wide, dl_sql parse srt x s t = Some (List.map (fun m => dn m) (d_metrics x), Rows) /\
    olist_compute parse psort lsort (dist_of x) (d_where x) (d_metrics x) (d_list_where x) s df = Some (d_metrics x, wide) /\
    Permutation (list_shown I (List.map (fun m => dn m) (d_metrics x)) Rows) (List.map encl wide).
  Proof.
    destruct (columns_all (d_metrics x) (incl_refl _)) as (ress & HA & HF). destruct some_metric as [m0 Hm0].
    assert (forall j m, nth_error (d_metrics x) j = Some m -> exists res, nth_error ress j = Some res /\ own m = Some res) as HA'.
    { clear - HA. induction HA as [|m res l l' H HA IH]; intros [|j] m' Hj; try discriminate; [injection Hj as <-; exists res; auto|]. exact (IH j m' Hj). }
    assert (List.length ress = List.length (d_metrics x)) as HL by (clear - HA; induction HA; cbn [List.length]; congruence).
    assert (exists res0, own m0 = Some res0) as [res0 E0] by (destruct (metric_shown m0 Hm0) as (res & E & _); eauto).
    destruct (C74_own_result parse psort lsort (dist_of x) (d_where x) (d_metrics x) (d_list_where x) s df m0 res0 Hfs lop_ok Hm0 E0 Coq.Init.Logic.I) as (cs & wide & EW & _ & _).
    assert (cs = d_metrics x) as Ecs.
    { rewrite (C74_columns parse psort lsort _ _ _ _ _ _ _ _ EW). apply filter_all. intros m Hm. destruct (metric_column m Hm) as (F & -> & _). reflexivity. }
    subst cs. exists wide. split; [exact sql_is|]. split; [exact EW|].
    assert (forall j m, nth_error (d_metrics x) j = Some m -> exists res, nth_error ress j = Some res /\ own m = Some res /\ column_is j wide res NaN) as HC.
    { intros j m Hj. destruct (HA' j m Hj) as (res & Hr & E). exists res. split; [exact Hr|]. split; [exact E|].
      destruct (C74_own_result parse psort lsort (dist_of x) (d_where x) (d_metrics x) (d_list_where x) s df m res Hfs lop_ok (nth_error_In _ _ Hj) E Coq.Init.Logic.I) as (cs & wide' & EW' & _ & Hcol).
      rewrite EW in EW'. injection EW' as <- <-. exact (Hcol j Hj). }
    pose proof EW as EW'. unfold olist_compute in EW'. set (lr := list_results parse psort (d_metrics x) (s ++ lop_over (dist_of x)) (filter (pfilters parse (d_list_where x)) (filter (pfilters parse (d_where x)) df))) in EW'.
    assert (List.map fst lr = d_metrics x /\ wapply lsort (psort CumValues) (dist_of x) (List.length lr) (List.length s) (concat_frames (List.map snd lr)) = Some wide) as [Elr Ewide].
    { destruct lr; [discriminate|]. destruct (wapply _ _ _ _ _ _); [|discriminate]. cbn [option_map] in EW'. injection EW' as <- <-. auto. }
    assert (List.length lr = List.length ress) as HLr by (rewrite HL, <- Elr; now rewrite map_length). rewrite HLr in Ewide.
    cbn [dist_of wapply] in Ewide. injection Ewide as Ewide. unfold wdistribution in Ewide.
    assert (NoDup (List.map fst (concat_frames (List.map snd lr)))) as HNW by (unfold concat_frames; rewrite map_map; cbn [fst]; rewrite map_id; apply NoDup_nodup).
    assert (List.map fst wide = List.map fst (concat_frames (List.map snd lr))) as HK by (rewrite <- Ewide; unfold per_cell; rewrite map_map; reflexivity).
    assert (Permutation (concat_frames ress) wide) as HPw.
    { apply wide_columns; [|now rewrite HK| |].
      - intros r Hr. rewrite <- Ewide in Hr. unfold per_cell in Hr. apply in_map_iff in Hr as (q & <- & _). cbn [snd]. apply map_ext_in. intros j Hj. apply in_seq in Hj.
        symmetry. apply (cell_seq (fun j => xdiv (cell_at j q) (wlookup j (firstn n (fst q)) _))). lia.
      - intros k Hk. rewrite HK in Hk. apply concat_keys in Hk as (F & HF' & HkF). apply in_map_iff in HF' as ([m F'] & E & Hlr). cbn [snd] in E. subst F'.
        apply In_nth_error in Hlr as [j Hlr]. destruct (res_nth parse psort (dist_of x) (d_where x) (d_metrics x) (d_list_where x) s df j m F Hlr) as [Hch Hm].
        apply In_nth_error in Hm as [i Hi]. destruct (HA' i m Hi) as (res & Hr & E). exists res. split; [exact (nth_error_In _ _ Hr)|]. rewrite alone_eq, Hch in E. cbn [dist_of capply] in E. injection E as <-. now rewrite distribution_index.
      - intros j res Hr. assert (exists m, nth_error (d_metrics x) j = Some m) as [m Hm].
        { destruct (nth_error (d_metrics x) j) eqn:E; [eauto|]. exfalso. apply nth_error_None in E. assert (j < List.length ress)%nat by (apply nth_error_Some; congruence). lia. }
        destruct (HC j m Hm) as (res' & Hr' & _ & Hcol). assert (res' = res) as <- by congruence. exact Hcol. }
    etransitivity; [|apply Permutation_map, HPw].
    assert (List.map (fun m => cell m) (d_metrics x) <> []) as Hne by (destruct (d_metrics x); [destruct Hm0|discriminate]).
    pose proof (many_columns rkey Rows rows_nodup _ _ HF Hne) as HM. etransitivity; [|exact HM]. unfold list_shown. erewrite map_ext; [apply Permutation_refl|]. intros r. cbv beta. f_equal. rewrite !map_map. reflexivity.
  Qed.
  End Data.
End Rows.
