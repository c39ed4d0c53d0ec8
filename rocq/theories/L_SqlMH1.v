(** MHRaw: the numerator and the denominator in one table. *)
From Coq Require Import Reals List Bool String Arith Permutation Lia Lra.
From Verif Require Import M_Num M_Frame L_Frame M_Ops S_Ops L_OpsA L_OpsB M_SqlGlobal S_SqlGlobal L_SqlGlobal M_SqlLeaf S_SqlLeaf L_SqlLeaf L_SqlLeaf2 M_SqlOps S_SqlOps L_SqlOps L_SqlOps2 L_SqlOps7 L_SqlBin L_SqlScope M_SqlList S_SqlList L_SqlList L_SqlList2 L_SqlList3 M_SqlMH S_SqlMH.
Import ListNotations.
Open Scope string_scope.
Open Scope list_scope.

Section Raw.
  Variables (x : mh_op) (s : list string).
  Hypothesis Hsup : supported_mh x s.
  Notation I := (mh_by x s ++ mh_rest x).
  Notation vn := (value_name (mh_numer x)). Notation vd := (value_name (mh_denom x)).
  Notation ch := [(vn, mh_child_sql x s (mh_numer x)); (vd, mh_child_sql x s (mh_denom x))].

  Lemma raw_good : NoDup I /\ Forall (good_child I) ch /\ NoDup (List.map fst ch) /\ ForallOrdPairs (fun r p => ~ renamed (snd r) (snd p)) ch /\ (forall p, In p ch -> well_scoped (snd p) = true) /\ ~ In vn I /\ ~ In vd I.
  Proof.
    destruct Hsup as (_ & _ & Hn & Hd & He & Hne & Hren & _).
    pose proof (nodup_index _ _ Hn) as HI. fold (mh_rest x) in HI.
    destruct (tree_ok (get_global_filter (mh_filter_tree x)) (mh_numer x) (mh_local x) (mh_by x s) Hn) as [F1 S1].
    destruct (tree_ok (get_global_filter (mh_filter_tree x)) (mh_denom x) (mh_local x) (mh_by x s) Hd) as [F2 S2]. rewrite He in F2, S2. fold (mh_rest x) in *.
    assert (forall m by_, supported_tree by_ m -> ~ In (value_name m) (by_ ++ extra_idx m)) as HN by (intros m by_ H; destruct m; apply H).
    pose proof (HN _ _ Hn) as Nn. pose proof (HN _ _ Hd) as Nd. rewrite He in Nd. fold (mh_rest x) in Nn, Nd.
    split; [exact HI|]. split; [|split; [|split; [|split]]].
    - constructor; [|constructor; [|constructor]]; (split; [eexists; eassumption|assumption]).
    - cbn. constructor; [intros [E|[]]; congruence|]. repeat constructor. intros [].
    - constructor; [constructor; [exact Hren|constructor]|]. repeat constructor.
    - intros p [<-|[<-|[]]]; assumption.
    - auto.
  Qed.

  Lemma raw_scoped : list_scoped (mh_raw x s) = true /\ list_columns (mh_raw x s) = I ++ [vn; vd].
  Proof. destruct raw_good as (H1 & H2 & H3 & H4 & H5 & _). split; [apply (query_scoped I ch); assumption|apply (query_columns I ch); assumption]. Qed.

  Variables (parse : string -> cond) (srt : list okey -> list env -> list env) (psort : cum_how -> bool -> nat -> rframe -> rframe) (t : stable).
  Hypothesis Hdb : db_sorts srt.
  Hypothesis Hps : pandas_sorts psort.
  Hypothesis Hleaf : mh_leaves_fit parse x s t.
  Hypothesis Hfits : mh_fits parse psort x s (pandas_table t).

  Lemma raw_child m : m = mh_numer x \/ m = mh_denom x ->
    exists F, op_compute parse psort m (mh_by x s) (filter (pfilters parse (mh_child_where x)) (filter (pfilters parse (mh_where x)) (pandas_table t))) = Some F /\
      inv parse srt t (mh_child_sql x s m) I (value_name m) F /\ (I = [] -> F <> []).
  Proof.
    intros Hm. pose proof Hsup as (Hc & _ & Hn & Hd & He & _). set (glob := get_global_filter (mh_filter_tree x)).
    assert (supported_tree (mh_by x s) m /\ extra_idx m = mh_rest x /\ tree_fits parse psort m (mh_by x s) (filter (pfilters parse (mh_child_where x)) (filter (pfilters parse (mh_where x)) (pandas_table t)))) as (Hs & Ee & Ht).
    { destruct Hfits as (H1 & H2 & _). destruct Hm as [-> | ->]; auto. }
    rewrite filter_pfilters_app in Ht |- *. unfold mh_child_sql. rewrite <- Ee.
    assert (all_fit parse t glob m (mh_by x s) (mh_where x ++ mh_child_where x) (mh_local x)) as Hall by (intros b fs lc by' Hb; now apply (Hleaf m Hm)).
    pose proof (nonempty_above parse t glob m _ _ _ Hall) as Hw.
    assert (~ In "" (mh_where x) /\ ~ In "" (mh_child_where x)) as [Hw1 Hw2] by (split; intros H; apply Hw, in_or_app; auto).
    apply (tree_step parse srt psort t Hdb Hps glob m (mh_by x s) (mh_where x ++ mh_child_where x) (mh_local x)); auto.
    assert (~ In "" (remove (add (add [] (mh_where x)) []) glob)) as N1 by (intros H; apply remove_in in H as [H _]; revert H; apply add_nonempty, add_nonempty; intros []).
    split; [|split].
    - intros H. apply remove_in in H as [H _]. revert H. apply add_nonempty, add_nonempty. intros [].
    - intros r Hr. unfold mh_local. fold glob. rewrite spass_step by assumption. rewrite spass_step by (assumption || intros []). rewrite spass_app. cbn [spass]. change (spass parse [] r) with true. rewrite andb_true_r. apply andb_comm.
    - intros p Hp. assert (In p (paths [] (mh_filter_tree x))) as Hp'.
      { unfold mh_filter_tree. cbn [paths flat_map app]. rewrite app_nil_r. apply in_or_app. destruct Hm as [-> | ->]; [now left|right]. apply in_or_app. now left. }
      intros f Hf. apply (global_in_paths _ _ _ f) in Hp'; auto. intros ->. now apply nonempty_global in Hf.
  Qed.
  Lemma raw_rows_same : exists a b, mh_children parse psort x s (pandas_table t) = Some (List.map (fun k => (k, (lookup k a, lookup k b))) (nodup (list_eq_dec string_dec) (List.map fst a ++ List.map fst b))) /\
    Permutation (list_shown I [vn; vd] (run_list parse srt (mh_raw x s) t)) (List.map (fun kv => (List.map Some (fst kv), snd kv)) (concat_frames [a; b])) /\
    Forall (fun r => List.length (fst r) = List.length I) a /\ Forall (fun r => List.length (fst r) = List.length I) b /\ Forall (fun r => no_inf (snd r)) a /\ Forall (fun r => no_inf (snd r)) b.
  Proof.
    destruct (raw_child (mh_numer x) (or_introl eq_refl)) as (a & Ea & Ia & Na). destruct (raw_child (mh_denom x) (or_intror eq_refl)) as (b & Eb & Ib & Nb).
    exists a, b. split; [unfold mh_children; cbn zeta; now rewrite Ea, Eb|]. destruct raw_good as (H1 & H2 & H3 & H4 & H5 & _). split; [|split; [apply Ia|split; [apply Ib|split; [apply Ia|apply Ib]]]].
    apply (query_rows I ch ltac:(discriminate) H1 H2 H3 H4 H5 parse srt t [a; b] Hdb). constructor; [split; assumption|constructor; [split; assumption|constructor]].
  Qed.
End Raw.
