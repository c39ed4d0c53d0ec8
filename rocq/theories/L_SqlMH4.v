(** MH in SQL and in pandas: the whole. *)
From Coq Require Import Reals List Bool String Arith Permutation Lia Lra.
From Verif Require Import M_Num M_Frame L_Frame M_Ops S_Ops L_OpsA L_OpsB M_SqlGlobal M_SqlLeaf S_SqlLeaf L_SqlLeaf L_SqlLeaf2 M_SqlOps S_SqlOps L_SqlOps L_SqlOps2 L_SqlOps5 L_SqlBin L_SqlBin3 M_SqlList S_SqlList M_SqlJackknife M_SqlJackFast L_SqlJack7 M_SqlMH S_SqlMH L_SqlMH1 L_SqlMH2 L_SqlMH3.
Import ListNotations.
Open Scope string_scope.
Open Scope list_scope.

Section Whole.
  Variables (parse : string -> cond) (srt : list okey -> list env -> list env) (psort : cum_how -> bool -> nat -> rframe -> rframe) (x : mh_op) (s : list string) (t : stable).
  Hypothesis Hdb : db_sorts srt.
  Hypothesis Hps : pandas_sorts psort.
  Hypothesis Hsup : supported_mh x s.
  Hypothesis Hleaf : mh_leaves_fit parse x s t.
  Hypothesis Hfits : mh_fits parse psort x s (pandas_table t).
  Notation vn := (value_name (mh_numer x)). Notation vd := (value_name (mh_denom x)).
  Notation Raw := (run_list parse srt (mh_raw x s) t).
  Notation J := (joined s (mh_cond x) (mh_strata x) (mh_rest x) (mh_base x) (mh_include_base x) Raw).
  Notation obj' := (obj s (mh_cond x) (mh_rest x) vn vd).

  Lemma nodup_mh_index : NoDup (mh_index x s).
  Proof.
    destruct (raw_good x s Hsup) as (H & _). unfold mh_by in H. unfold mh_index.
    assert (Permutation ((s ++ mh_cond x ++ mh_strata x) ++ mh_rest x) (mh_strata x ++ s ++ mh_cond x ++ mh_rest x)) as P' by (rewrite <- !app_assoc; rewrite (Permutation_app_swap_app (mh_cond x)), Permutation_app_swap_app; reflexivity).
    apply (Permutation_NoDup P') in H. now apply NoDup_tail in H.
  Qed.
  Lemma shown_mh : shown (mh_index x s) (mh_value x) (mh_sql parse srt x s t) = List.map (fun kv => (fst kv, fetch (snd kv))) (groups (List.map obj' J)).
  Proof.
    pose proof Hsup as (_ & _ & _ & _ & _ & _ & _ & Hv). pose proof nodup_mh_index as Hd.
    unfold mh_sql. cbn zeta. fold (drop_columns (mh_cond x)). fold (mh_using x s).
    change (List.map (fun r c => if mem c (mh_cond x) then Null else r c) (filter (fun r => where_pass (Some (WEq (combine (mh_cond x) (mh_base x)))) (plain_env r)) Raw)) with (base_rows (mh_cond x) (mh_base x) Raw).
    change (filter (fun p : row * row => where_pass (if mh_include_base x then None else Some (WNot (combine (mh_cond x) (mh_base x)))) (plain_env (fst p))) (left_join (mh_using x s) Raw (base_rows (mh_cond x) (mh_base x) Raw))) with J.
    unfold groups, shown. rewrite !map_map. cbn [fst snd].
    change (fun p : row * row => List.map (fun c => label (fst p c)) (mh_index x s)) with (fun p : row * row => fst (obj' p)).
    apply map_ext_in. intros k Hk. rewrite nodup_In in Hk. apply in_map_iff in Hk as (p & Ek & Hp).
    assert (List.length k = List.length (mh_index x s)) as Hlen by (rewrite <- Ek; cbn [obj fst]; now rewrite map_length).
    f_equal.
    - etransitivity; [|exact (assoc_combine_map _ _ Hlen Hd)]. apply map_ext_in. intros c Hc. destruct (assoc_in _ _ _ Hlen Hc) as [l ->]. apply label_of_label.
    - f_equal. rewrite assoc_out by exact Hv. rewrite String.eqb_refl, number_of_number. unfold per_group, fin. do 2 f_equal; f_equal; f_equal; rewrite filter_map_comm, map_map; reflexivity.
  Qed.

  Theorem mh_same : exists res, mh_pandas parse psort x s (pandas_table t) = Some res /\ same_rows (shown (mh_index x s) (mh_value x) (mh_sql parse srt x s t)) res.
  Proof.
    destruct (raw_rows_same x s Hsup parse srt psort t Hdb Hps Hleaf Hfits) as (a & b & Hch & HP & La & Lb & Fa & Fb).
    destruct (raw_good x s Hsup) as (HI & _ & _ & _ & _ & Nn & Nd). pose proof Hsup as (_ & Hb & _).
    unfold mh_pandas. rewrite Hch. set (fr := List.map _ _) in *.
    pose proof (proj2 (proj2 Hfits) fr Hch) as Hfit.
    assert (forall k q, In (k, q) fr -> (In k (List.map fst a) \/ In k (List.map fst b)) /\ q = (lookup k a, lookup k b)) as Hin.
    { intros k q H. unfold fr in H. apply in_map_iff in H as (k' & E & H). injection E as -> <-. split; [|reflexivity]. apply nodup_In, in_app_iff in H. exact H. }
    assert (NoDup (List.map fst fr)) as Hd by (unfold fr; rewrite map_map; cbn [fst]; rewrite map_id; apply NoDup_nodup).
    assert (forall k q, In (k, q) fr -> List.length k = List.length (mh_by x s ++ mh_rest x)) as Hl.
    { intros k q H. rewrite Forall_forall in La, Lb. apply Hin in H as ([H|H] & _); apply in_map_iff in H as (r & <- & H); [now apply La|now apply Lb]. }
    assert (forall fr0 k, Forall (fun r : list string * num => no_inf (snd r)) fr0 -> no_inf (lookup k fr0)) as Hlk.
    { intros fr0 k. induction 1 as [|[k' v] l Hr Hl0 IH]; [split; discriminate|]. cbn [lookup]. destruct (key_eqb k' k); auto. }
    assert (forall k q, In (k, q) fr -> no_inf (fst q) /\ no_inf (snd q)) as Hfin by (intros k q H; apply Hin in H as [_ ->]; split; now apply Hlk).
    assert (exists res, mh (List.length s) (List.length (mh_cond x)) (List.length (mh_strata x)) (mh_base x) (mh_include_base x) fr = Some res) as [res Hres].
    { destruct Hfit as ((k & q & Hk & Hkb) & _). unfold mh. destruct (xs (List.length s) (List.length (mh_cond x)) (mh_base x) fr) eqn:E; [eauto|]. rewrite xs_None in E. exfalso. exact (E _ _ Hk Hkb). }
    exists res. split; [exact Hres|]. unfold same_rows. rewrite shown_mh.
    apply (mh_groups s (mh_cond x) (mh_strata x) (mh_rest x) (mh_base x) (mh_include_base x) vn vd Raw fr); auto.
    unfold mh_by in HP. etransitivity; [exact HP|]. unfold concat_frames, fr. rewrite !map_map. cbn [flat_map fst snd List.map]. rewrite app_nil_r. apply Permutation_refl.
  Qed.
End Whole.
