(** The rows of the query are those of the list by pandas. *)
From Coq Require Import Reals List Bool String Arith Permutation Lia Lra.
From Verif Require Import M_Num M_Frame L_Frame M_Ops S_Ops L_OpsA L_OpsB M_SqlGlobal S_SqlGlobal L_SqlGlobal M_SqlLeaf S_SqlLeaf L_SqlLeaf L_SqlLeaf2 M_SqlOps S_SqlOps L_SqlOps L_SqlOps2 L_SqlOps7 L_SqlBin L_SqlScope M_SqlList S_SqlList L_SqlList M_OpList S_OpList L_OpList2 L_OpList3 L_OpList4 L_OpList6 P_OpList M_SqlMHList S_SqlMHList L_SqlMHList1 L_SqlMHList2 M_SqlChangeList S_SqlChangeList L_SqlChangeList1 L_SqlChangeList2.
Import ListNotations.
Open Scope string_scope.
Open Scope list_scope.

Lemma compare_keys f n nc base incl F res k : compare_with_base f n nc base incl F = Some res -> In k (List.map fst F) -> incl = true \/ key_eqb (cond_of n nc k) base = false -> In k (List.map fst res).
Proof.
  unfold compare_with_base. destruct (xs n nc base F) as [b|]; [|discriminate]. intros E Hk Hc. injection E as <-. apply in_map_iff in Hk as ([k' v] & <- & Hi). cbn [fst] in *.
  assert (forall g : list string * num -> num, In k' (List.map fst (List.map (fun r => (fst r, g r)) F))) as HI by (intros g; rewrite map_map; cbn [fst]; exact (in_map fst _ _ Hi)).
  destruct incl; [apply HI|]. destruct Hc as [Hc|Hc]; [discriminate|]. rewrite filter_map_comm, map_map. cbn [fst]. apply in_map_iff. exists (k', v). split; [reflexivity|]. apply filter_In. split; [exact Hi|]. cbn [fst]. now rewrite Hc.
Qed.
Lemma wchange_shape f c n nc base incl w wide : wchange f c n nc base incl w = Some wide ->
  (forall r, In r wide -> snd r = List.map (fun j => cell_at j r) (seq 0 c)) /\ (NoDup (List.map fst w) -> NoDup (List.map fst wide)) /\
  (forall k, In k (List.map fst wide) -> In k (List.map fst w) /\ (incl = true \/ key_eqb (cond_of n nc k) base = false)).
Proof.
  unfold wchange. destruct (xs n nc base w) as [b|]; [|discriminate]. intros E. injection E as <-. set (P := per_cell c _ w).
  assert (forall r, In r P -> snd r = List.map (fun j => cell_at j r) (seq 0 c)) as H1.
  { intros r Hr. unfold P, per_cell in Hr. apply in_map_iff in Hr as (q & <- & _). cbn [snd]. apply map_ext_in. intros j Hj. apply in_seq in Hj.
    symmetry. apply (cell_seq (fun j => f (cell_at j q) (wlookup j (drop_cond n nc (fst q)) b))). lia. }
  assert (List.map fst P = List.map fst w) as HK by (unfold P, per_cell; rewrite map_map; reflexivity).
  destruct incl; [split; [exact H1|]; rewrite HK; split; auto|]. split; [|split].
  - intros r Hr. apply filter_In in Hr as [Hr _]. auto.
  - intros HN. apply NoDup_map_filter. now rewrite HK.
  - intros k Hk. apply in_map_iff in Hk as (r & <- & Hr). apply filter_In in Hr as [Hr Hf]. split; [rewrite <- HK; now apply in_map|]. right. now apply negb_true_iff.
Qed.
(** A wide frame is put together from its columns. *)
Lemma wide_columns (wide : wframe) (ress : list rframe) :
  (forall r, In r wide -> snd r = List.map (fun j => cell_at j r) (seq 0 (List.length ress))) -> NoDup (List.map fst wide) ->
  (forall k, In k (List.map fst wide) -> exists res, In res ress /\ In k (List.map fst res)) ->
  (forall j res, nth_error ress j = Some res -> column_is j wide res NaN) ->
  Permutation (concat_frames ress) wide.
Proof.
  intros H1 HN HK HC. unfold concat_frames.
  assert (wide = List.map (fun k => (k, List.map (lookup k) ress)) (List.map fst wide)) as E.
  { rewrite map_map. rewrite <- (map_id wide) at 1. apply map_ext_in. intros r Hr. rewrite (surjective_pairing r) at 1. f_equal. rewrite (H1 r Hr).
    assert (forall j res, nth_error ress j = Some res -> cell_at j r = lookup (fst r) res) as HE.
    { intros j res Hj. destruct (HC j res Hj) as [C1 C2].
      assert (lookup (fst r) (wcol j wide) = cell_at j r) as <-. { apply lookup_In; [unfold wcol; rewrite map_map; exact HN|]. unfold wcol. apply in_map_iff. exists r. auto. }
      destruct (in_dec (list_eq_dec string_dec) (fst r) (List.map fst res)) as [Hi|Hi]; [now apply C1|].
      rewrite (C2 _ (in_map fst _ _ Hr) Hi). symmetry. clear - Hi. induction res as [|[k v] res IH]; [reflexivity|]. cbn [lookup]. destruct (key_eqb k (fst r)) eqn:E.
      - apply key_eqb_eq in E. exfalso. apply Hi. left. exact E.
      - apply IH. intros Hx. apply Hi. now right. }
    clear - HE. assert (forall d, (forall j res, nth_error ress j = Some res -> cell_at (d + j) r = lookup (fst r) res) -> List.map (fun j => cell_at j r) (seq d (List.length ress)) = List.map (lookup (fst r)) ress) as G; [|now apply (G 0%nat)].
    clear HE. induction ress as [|res l IH]; intros d HE; [reflexivity|]. cbn [List.length seq List.map]. f_equal; [rewrite <- (HE 0%nat res eq_refl); f_equal; lia|]. apply IH. intros j q Hj. rewrite <- (HE (S j) q Hj). f_equal. lia. }
  rewrite E at 1. apply Permutation_map. apply NoDup_Permutation; [apply NoDup_nodup|exact HN|]. intros k. rewrite nodup_In, in_flat_map. split.
  - intros (res & Hr & Hk). apply In_nth_error in Hr as [j Hj]. destruct (HC j res Hj) as [C1 _]. now apply C1.
  - intros Hk. destruct (HK k Hk) as (res & H2 & H3). eauto.
Qed.

Section Whole.
  Variables (parse : string -> cond) (srt : list okey -> list env -> list env) (psort : cum_how -> bool -> nat -> rframe -> rframe) (lsort : bool -> nat -> wframe -> wframe).
  Variables (x : chl_op) (s : list string) (t : stable).
  Hypothesis Hdb : db_sorts srt.
  Hypothesis Hps : pandas_sorts psort.
  Hypothesis Hfs : frames_sort psort lsort.
  Hypothesis Hsup : supported_chl x s.
  Hypothesis Hleaf : chl_leaves_fit parse x s t.
  Hypothesis Hfits : chl_fits parse psort x s (pandas_table t).
  Notation I := (chl_index x s).
  Notation df := (pandas_table t).
  Notation Rs := (Rows x s parse srt t).
  Notation child := (child_of parse psort (change_of x) (h_where x) (h_list_where x) s df).
  Notation own m := (op_compute parse psort (alone (change_of x) (h_where x) (h_list_where x) m) s df).
  Notation rkey := (fun w : row => List.map (fun c => label (w c)) I).
  Notation cell m := (fun w : row => fetch (number (w (chl_name x (value_name m))))).

  Lemma columns_all l : incl l (h_metrics x) -> exists ress, Forall2 (fun m res => own m = Some res) l ress /\ Forall2 (column_of rkey Rs) (List.map (fun m => cell m) l) ress.
  Proof.
    induction l as [|m l IH]; intros H; [exists []; split; constructor|]. destruct IH as (ress & E & HF); [intros a Ha; apply H; now right|].
    destruct (metric_shown x s Hsup parse srt psort t Hdb Hps Hleaf Hfits m (H m (or_introl eq_refl))) as (res & Er & Hc). exists (res :: ress). split; constructor; assumption.
  Qed.
  Lemma lop_ok : lop_supported (change_of x) (h_metrics x).
  Proof. split; [|exact Coq.Init.Logic.I]. intros m Hm. pose proof (leaf_in x s Hsup m Hm) as Hl. destruct m; try destruct Hl. exact Coq.Init.Logic.I. Qed.
  Lemma child_some m : In m (h_metrics x) -> exists F, child m = Some F.
  Proof. intros Hm. destruct (child_inv x s Hsup parse srt psort t Hdb Hps Hleaf m Hm) as (F & E & _). eauto. Qed.
  Lemma rows_nodup : NoDup (List.map rkey Rs).
  Proof.
    assert (exists m, In m (h_metrics x)) as [m Hm] by (destruct Hsup as (_ & _ & Hne & _); clear - Hne; destruct (h_metrics x) as [|m ms]; [congruence|]; exists m; now left).
    destruct (metric_column x s Hsup parse srt psort t Hdb Hps Hleaf Hfits m Hm) as (F & res & _ & _ & HP & _ & HN). apply (Permutation_map fst) in HP. unfold obs in HP. rewrite !map_map in HP. cbn [fst enc] in HP.
    apply (Permutation_NoDup (Permutation_sym HP)). rewrite <- map_map. apply FinFun.Injective_map_NoDup; [intros u v E; now apply some_inj in E|exact HN].
  Qed.
  Lemma whole : exists wide, chl_sql parse srt x s t = Some (List.map (fun m => chl_name x (value_name m)) (h_metrics x), Rs) /\
    olist_compute parse psort lsort (change_of x) (h_where x) (h_metrics x) (h_list_where x) s df = Some (h_metrics x, wide) /\
    Permutation (list_shown I (List.map (fun m => chl_name x (value_name m)) (h_metrics x)) Rs) (List.map encl wide).
  Proof.
    destruct (columns_all (h_metrics x) (incl_refl _)) as (ress & HA & HF).
    assert (exists m0, In m0 (h_metrics x)) as [m0 Hm0] by (destruct Hsup as (_ & _ & Hne & _); clear - Hne; destruct (h_metrics x) as [|m ms]; [congruence|]; exists m; now left).
    assert (forall j m, nth_error (h_metrics x) j = Some m -> exists res, nth_error ress j = Some res /\ own m = Some res) as HA'.
    { clear - HA. induction HA as [|m res l l' H HA IH]; intros [|j] m' Hj; try discriminate; [injection Hj as <-; exists res; auto|]. exact (IH j m' Hj). }
    assert (List.length ress = List.length (h_metrics x)) as HL by (clear - HA; induction HA; cbn [List.length]; congruence).
    assert (forall m, In m (h_metrics x) -> exists res, own m = Some res) as Hown by (intros m Hm; apply In_nth_error in Hm as [j Hj]; destruct (HA' j m Hj) as (res & _ & E); eauto).
    destruct (Hown m0 Hm0) as [res0 E0].
    destruct (C74_own_result parse psort lsort (change_of x) (h_where x) (h_metrics x) (h_list_where x) s df m0 res0 Hfs lop_ok Hm0 E0 Coq.Init.Logic.I) as (cs & wide & EW & _ & _).
    assert (cs = h_metrics x) as Ecs.
    { rewrite (C74_columns parse psort lsort _ _ _ _ _ _ _ _ EW). apply filter_all. intros m Hm. destruct (child_some m Hm) as [F ->]. reflexivity. }
    subst cs. exists wide. split; [exact (sql_is x s Hsup parse srt t)|]. split; [exact EW|].
    assert (forall j m, nth_error (h_metrics x) j = Some m -> exists res, nth_error ress j = Some res /\ own m = Some res /\ column_is j wide res NaN) as HC.
    { intros j m Hj. destruct (HA' j m Hj) as (res & Hr & E). exists res. split; [exact Hr|]. split; [exact E|].
      destruct (C74_own_result parse psort lsort (change_of x) (h_where x) (h_metrics x) (h_list_where x) s df m res Hfs lop_ok (nth_error_In _ _ Hj) E Coq.Init.Logic.I) as (cs & wide' & EW' & _ & Hcol).
      rewrite EW in EW'. injection EW' as <- <-. exact (Hcol j Hj). }
    (* the shape of the frame *)
    pose proof EW as EW'. unfold olist_compute in EW'. set (lr := list_results parse psort (h_metrics x) (s ++ lop_over (change_of x)) (filter (pfilters parse (h_list_where x)) (filter (pfilters parse (h_where x)) df))) in EW'.
    assert (List.map fst lr = h_metrics x /\ wapply lsort (psort CumValues) (change_of x) (List.length lr) (List.length s) (concat_frames (List.map snd lr)) = Some wide) as [Elr Ewide].
    { destruct lr; [discriminate|]. destruct (wapply _ _ _ _ _ _); [|discriminate]. cbn [option_map] in EW'. injection EW' as <- <-. auto. }
    assert (List.length lr = List.length ress) as HLr by (rewrite HL, <- Elr; now rewrite map_length). rewrite HLr in Ewide.
    assert (exists f, wchange f (List.length ress) (List.length s) (List.length (h_cond x)) (h_base x) (h_include x) (concat_frames (List.map snd lr)) = Some wide /\
                      forall F, capply psort (change_of x) (List.length s) F = compare_with_base f (List.length s) (List.length (h_cond x)) (h_base x) (h_include x) F) as (f & Ef & Hf).
    { unfold change_of, wapply, capply in *. destruct (h_percent x); eexists; (split; [exact Ewide|reflexivity]). }
    destruct (wchange_shape _ _ _ _ _ _ _ _ Ef) as (S1 & S2 & S3).
    assert (NoDup (List.map fst (concat_frames (List.map snd lr)))) as HNW by (unfold concat_frames; rewrite map_map; cbn [fst]; rewrite map_id; apply NoDup_nodup).
    assert (Permutation (concat_frames ress) wide) as HPw.
    { apply wide_columns; [exact S1|auto| |].
      - intros k Hk. destruct (S3 k Hk) as [Hk' Hc]. apply concat_keys in Hk' as (F & HF' & HkF). apply in_map_iff in HF' as ([m F'] & E & Hlr). cbn [snd] in E. subst F'.
        apply In_nth_error in Hlr as [j Hlr]. destruct (res_nth parse psort (change_of x) (h_where x) (h_metrics x) (h_list_where x) s df j m F Hlr) as [Hch Hm].
        apply In_nth_error in Hm as [i Hi]. destruct (HA' i m Hi) as (res & Hr & E). exists res. split; [exact (nth_error_In _ _ Hr)|]. rewrite alone_eq, Hch, Hf in E. exact (compare_keys _ _ _ _ _ _ _ k E HkF Hc).
      - intros j res Hr. assert (exists m, nth_error (h_metrics x) j = Some m) as [m Hm].
        { destruct (nth_error (h_metrics x) j) eqn:E; [eauto|]. exfalso. apply nth_error_None in E. assert (j < List.length ress)%nat by (apply nth_error_Some; congruence). lia. }
        destruct (HC j m Hm) as (res' & Hr' & _ & Hcol). assert (res' = res) as <- by congruence. exact Hcol. }
    etransitivity; [|apply Permutation_map, HPw].
    assert (List.map (fun m => cell m) (h_metrics x) <> []) as Hne by (destruct (h_metrics x); [destruct Hm0|discriminate]).
    pose proof (many_columns rkey Rs rows_nodup _ _ HF Hne) as HM. etransitivity; [|exact HM]. unfold list_shown. erewrite map_ext; [apply Permutation_refl|]. intros r. cbv beta. f_equal. rewrite !map_map. reflexivity.
  Qed.
End Whole.
